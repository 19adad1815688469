(** * Iterating over a tree takes linear time: proofs *)
From Verif Require Export MeterSpec RbSet.

Section same.
  Context {V : Type}.
  Notation MT := (M (tcell V)).

  Lemma minimum_same n (x : addr) (w : world (tcell V)) : minimum_loop n x w = (let! r := minimum_m n x in ret r.1) w.
  Proof.
    revert x w. induction n as [|n IH]; intros x w; [done|]. simpl. unfold bind. destruct (get_left x w) as [[l|] w1|]; [|done|done].
    rewrite IH. done.
  Qed.
  Lemma maximum_same n (x : addr) (w : world (tcell V)) : maximum_loop n x w = (let! r := maximum_m n x in ret r.1) w.
  Proof.
    revert x w. induction n as [|n IH]; intros x w; [done|]. simpl. unfold bind. destruct (get_right x w) as [[l|] w1|]; [|done|done].
    rewrite IH. done.
  Qed.
  Lemma inc_same n (x y : addr) (w : world (tcell V)) : inc_loop n x y w = (let! r := inc_m n x y in ret r.1) w.
  Proof.
    revert x y w. induction n as [|n IH]; intros x y w; [done|]. simpl. unfold bind. destruct (get_right y w) as [r w1|]; [|done].
    destruct (decide _); [|done]. destruct (parent_of y w1) as [p w2|]; [|done]. rewrite IH. done.
  Qed.
  Lemma dec_same n (x y : addr) (w : world (tcell V)) : dec_loop n x y w = (let! r := dec_m n x y in ret r.1) w.
  Proof.
    revert x y w. induction n as [|n IH]; intros x y w; [done|]. simpl. unfold bind. destruct (get_left y w) as [r w1|]; [|done].
    destruct (decide _); [|done]. destruct (parent_of y w1) as [p w2|]; [|done]. rewrite IH. done.
  Qed.

  Lemma get_keeps {A} (f : tcell V -> option A) a w r w' : get_field f a w = Done r w' -> w' = w.
  Proof. unfold get_field, load, bind, get_heap. destruct (w_heap w !! a) as [c|]; [|done]. unfold ret, fail. destruct (f c); [|done]. by intros [= _ <-]. Qed.
  Lemma parent_keeps a (w : world (tcell V)) r w' : parent_of a w = Done r w' -> w' = w.
  Proof.
    unfold parent_of, bind. destruct (get_parent a w) as [p w1|] eqn:E; [|done]. apply get_keeps in E as ->.
    destruct p; simpl; [|done]. by intros [= _ <-].
  Qed.

  Lemma increment_same {L : limit} x (w : world (tcell V)) :
    rb_increment x w = (let! r := increment_m (rounds (size (w_heap w))) x in ret r.1) w.
  Proof.
    unfold rb_increment, increment_m, tree_fuel. unfold bind, get_heap. destruct (get_right x w) as [r w1|] eqn:E; [|done].
    assert (w1 = w) as -> by (eapply get_keeps, E). simpl. destruct r as [r|].
    - rewrite minimum_same. unfold bind. by destruct (minimum_m _ r w).
    - destruct (parent_of x w) as [y w2|] eqn:Ep; [|done]. rewrite inc_same. unfold bind.
      destruct (inc_m _ x y w2) as [[[a b] n'] w3|]; [|done]. simpl. destruct (get_right a w3) as [r w4|]; [|done]. by destruct (decide _).
  Qed.
  Lemma decrement_same {L : limit} x (w : world (tcell V)) :
    rb_decrement x w = (let! r := decrement_m (rounds (size (w_heap w))) x in ret r.1) w.
  Proof.
    unfold rb_decrement, decrement_m, tree_fuel. unfold bind, get_heap. destruct (get_color x w) as [c w1|] eqn:E; [|done].
    apply get_keeps in E as ->.
    set (m := if decide (c = Red) then _ else _).
    assert (forall b w2, m w = Done b w2 -> w2 = w) as Hm.
    { intros b w2. unfold m. destruct (decide _); [|by intros [= _ <-]].
      destruct (parent_of x w) as [p w3|] eqn:E; [|done]. apply parent_keeps in E as ->.
      destruct (get_parent p w) as [pp w3|] eqn:E; [|done]. apply get_keeps in E as ->. by intros [= _ <-]. }
    destruct (m w) as [b w2|] eqn:Em; [|done]. rewrite (Hm _ _ eq_refl). destruct b.
    - destruct (get_right x w) as [r w3|]; [|done]. by destruct r.
    - destruct (get_left x w) as [l w3|] eqn:E; [|done]. apply get_keeps in E as ->. simpl. destruct l as [y|].
      + rewrite maximum_same. unfold bind. by destruct (maximum_m _ y w).
      + destruct (parent_of x w) as [y w3|]; [|done]. rewrite dec_same. unfold bind. by destruct (dec_m _ x y w3).
  Qed.

  (** What is left of a larger budget: what an operation takes does not depend
      on what it may take. *)
  Definition metered {A} (f : nat -> MT (A * nat)) : Prop :=
    forall n w a n' w' k, f n w = Done (a, n') w' -> n' <= n /\ f (n + k) w = Done (a, n' + k) w'.
  Lemma minimum_metered x : metered (fun n => minimum_m n x).
  Proof.
    intros n. revert x. induction n as [|n IH]; intros x w a n' w' k; simpl; [done|]. unfold bind.
    destruct (get_left x w) as [[l|] w1|]; [|by intros [= <- <- <-]; auto with lia|done].
    intros H. apply (IH _ _ _ _ _ k) in H as [? ?]. split; [lia|done].
  Qed.
  Lemma maximum_metered x : metered (fun n => maximum_m n x).
  Proof.
    intros n. revert x. induction n as [|n IH]; intros x w a n' w' k; simpl; [done|]. unfold bind.
    destruct (get_right x w) as [[l|] w1|]; [|by intros [= <- <- <-]; auto with lia|done].
    intros H. apply (IH _ _ _ _ _ k) in H as [? ?]. split; [lia|done].
  Qed.
  Lemma inc_metered x y : metered (fun n => inc_m n x y).
  Proof.
    intros n. revert x y. induction n as [|n IH]; intros x y w a n' w' k; simpl; [done|]. unfold bind.
    destruct (get_right y w) as [r w1|]; [|done]. destruct (decide _); [|by intros [= <- <- <-]; auto with lia].
    destruct (parent_of y w1) as [p w2|]; [|done]. intros H. apply (IH _ _ _ _ _ _ k) in H as [? ?]. split; [lia|done].
  Qed.
  Lemma dec_metered x y : metered (fun n => dec_m n x y).
  Proof.
    intros n. revert x y. induction n as [|n IH]; intros x y w a n' w' k; simpl; [done|]. unfold bind.
    destruct (get_left y w) as [r w1|]; [|done]. destruct (decide _); [|by intros [= <- <- <-]; auto with lia].
    destruct (parent_of y w1) as [p w2|]; [|done]. intros H. apply (IH _ _ _ _ _ _ k) in H as [? ?]. split; [lia|done].
  Qed.
  Lemma increment_metered x : metered (fun n => increment_m n x).
  Proof.
    intros n w a n' w' k. unfold increment_m, bind. destruct (get_right x w) as [[r|] w1|]; [apply minimum_metered| |done].
    destruct (parent_of x w1) as [y w2|]; [|done].
    destruct (inc_m n x y w2) as [[q m] w3|] eqn:E; [|done]. destruct (inc_metered x y _ _ _ _ _ k E) as [Hle ->]. simpl.
    destruct (get_right q.1 w3) as [r w4|]; [|done]. destruct (decide _); intros [= <- <- <-]; split; done || lia.
  Qed.
  Lemma decrement_metered x : metered (fun n => decrement_m n x).
  Proof.
    intros n w a n' w' k. unfold decrement_m, bind. destruct (get_color x w) as [c w1|]; [|done].
    set (m := if decide (c = Red) then _ else _). destruct (m w1) as [b w2|]; [|done]. destruct b.
    - destruct (get_right x w2) as [[r|] w3|]; simpl; [|done..]. unfold ret. intros [= <- <- <-]. split; done || lia.
    - destruct (get_left x w2) as [[y|] w3|]; [apply maximum_metered| |done]. destruct (parent_of x w3) as [y w4|]; [|done]. apply dec_metered.
  Qed.
  Lemma forward_metered m x : metered (fun n => forward_m m n x).
  Proof.
    revert x. induction m as [|m IH]; intros x n w a n' w' k; simpl.
    - unfold ret. intros [= <- <- <-]. split; done || lia.
    - unfold bind. destruct (increment_m n x w) as [[y n1] w1|] eqn:E; [|done].
      destruct (increment_metered x _ _ _ _ _ k E) as [Hle ->]. simpl. intros H. apply (IH y _ _ _ _ _ k) in H as [? ?]. split; [lia|done].
  Qed.
  Lemma backward_metered m x : metered (fun n => backward_m m n x).
  Proof.
    revert x. induction m as [|m IH]; intros x n w a n' w' k; simpl.
    - unfold ret. intros [= <- <- <-]. split; done || lia.
    - unfold bind. destruct (decrement_m n x w) as [[y n1] w1|] eqn:E; [|done].
      destruct (decrement_metered x _ _ _ _ _ k E) as [Hle ->]. simpl. intros H. apply (IH y _ _ _ _ _ k) in H as [? ?]. split; [lia|done].
  Qed.
End same.

Section amortised.
  Context {V : Type} (al : alloc_id) (hdr : addr).
  Notation H := (gmap addr (tcell V)).
  Notation W := (world (tcell V)).
  Implicit Types h hf : H.
  Implicit Types w : W.
  Implicit Types t s : tree V.
  Implicit Types n : nat.
  Implicit Types k : @ctx V.
  Notation tin := (tin al hdr).
  Notation addrs t := (elems t).*1.
  Notation caddrs k := ((cpre k).*1 ++ (cpost k).*1).
  Notation tinE n h hf t := (tin (first_of hdr (elems t)) (last_of hdr (elems t)) n h hf t).

  (** The right turns and the left turns on the way from the root. *)
  Fixpoint dr k : nat := match k with Top => 0 | Frame DR _ _ _ _ k => S (dr k) | Frame DL _ _ _ _ k => dr k end.
  Fixpoint dl k : nat := match k with Top => 0 | Frame DL _ _ _ _ k => S (dl k) | Frame DR _ _ _ _ k => dl k end.
  Lemma dl_cpost k : dl k <= length (cpost k).
  Proof. induction k as [|[] c a v s k IH]; simpl; rewrite ?app_length; lia. Qed.
  Lemma dr_cpre k : dr k <= length (cpre k).
  Proof. induction k as [|[] c a v s k IH]; simpl; rewrite ?app_length; simpl; lia. Qed.
  Lemma dr_dl_depth k : dr k + dl k = depth k.
  Proof. induction k as [|[] c a v s k IH]; simpl; lia. Qed.

  Lemma minimum_m_spec lm rm sz hf n k c a v l r w (Q : addr * nat -> W -> Prop) :
    tin lm rm sz (w_heap w) hf (plug k (Node c a v l r)) -> height l < n ->
    (forall k' c' y v' r' n', plug k' (Node c' y v' Leaf r') = plug k (Node c a v l r) -> cpre k' = cpre k ->
       dr k' = dr k -> n' + S (dl k') = n + dl k -> Q (y, n') w) ->
    runs (minimum_m n a) w Q.
  Proof.
    revert k c a v l r. induction n as [|n IH]; intros k c a v l r Ht Hf HQ; [lia|].
    simpl. rbind. eapply (runs_get_child al DL). { eapply (tin_nodeD al hdr _ _ _ _ _ k DL). exact Ht. }
    destruct l as [|c' a' v' l' r']; simpl root; cbv iota.
    - apply runs_ret. eapply HQ; [done..|lia].
    - eapply (IH (Frame DL c a v r k)); [exact Ht|simpl in Hf; lia|].
      intros k' c0 y v0 r0 n' E1 E2 E3 E4. simpl in *. eapply HQ; [exact E1|exact E2|exact E3|lia].
  Qed.
  Lemma maximum_m_spec lm rm sz hf n k c a v l r w (Q : addr * nat -> W -> Prop) :
    tin lm rm sz (w_heap w) hf (plug k (Node c a v l r)) -> height r < n ->
    (forall k' c' y v' l' n', plug k' (Node c' y v' l' Leaf) = plug k (Node c a v l r) -> 
       cpre k' ++ elems l' ++ [(y, v')] = cpre k ++ elems (Node c a v l r) ->
       dl k' = dl k -> n' + S (dr k') = n + dr k -> Q (y, n') w) ->
    runs (maximum_m n a) w Q.
  Proof.
    revert k c a v l r. induction n as [|n IH]; intros k c a v l r Ht Hf HQ; [lia|].
    simpl. rbind. eapply (runs_get_child al DR). { eapply (tin_nodeD al hdr _ _ _ _ _ k DR). exact Ht. }
    destruct r as [|c' a' v' l' r']; simpl root; cbv iota.
    - apply runs_ret. eapply HQ; [done..|lia].
    - eapply (IH (Frame DR c a v l k)); [exact Ht|simpl in Hf; lia|].
      intros k' c0 y v0 r0 n' E1 E2 E3 E4. simpl in *. eapply HQ; [exact E1| |exact E3|lia]. rewrite E2. by rewrite <-!(assoc_L (++)).
  Qed.

  Definition inc_tail_m (q : addr * addr * nat) : M (tcell V) (addr * nat) :=
    let! r := get_right q.1.1 in
    if decide (r <> Some q.1.2) then ret (q.1.2, q.2) else ret (q.1.1, q.2).
  Lemma runs_inc_m_S n x y w (Q : addr * nat -> W -> Prop) :
    runs (let! r := get_right y in
          if decide (r = Some x) then
            let! p := parent_of y in let! q := inc_m n y p in inc_tail_m q
          else inc_tail_m (x, y, n)) w Q ->
    runs (let! q := inc_m (S n) x y in inc_tail_m q) w Q.
  Proof.
    intros (a & w' & Heq & HQ). exists a, w'. split; [|done]. rewrite <-Heq. simpl. unfold bind.
    destruct (get_right y w) as [r w1|]; [|done]. destruct (decide _); [|done]. by destruct (parent_of y w1).
  Qed.

  Lemma inc_m_spec lm rm sz hf n k c x v l r w (Q : addr * nat -> W -> Prop) :
    S (dr k) < n -> tin lm rm sz (w_heap w) hf (plug k (Node c x v l r)) ->
    (cpost k = [] -> forall n', Q (hdr, n') w) ->
    (forall k' c' y v' l' r' n', plug k' (Node c' y v' l' r') = plug k (Node c x v l r) ->
       cpre k' ++ elems l' = cpre k ++ elems (Node c x v l r) -> dl k = S (dl k') -> n' + S (dr k) = n + dr k' -> Q (y, n') w) ->
    runs (let! q := inc_m n x (cpar hdr k) in inc_tail_m q) w Q.
  Proof.
    revert n c x v l r. induction k as [|d c' y v' s k IH]; intros n c x v l r Hf Ht HQ HQ'.
    - destruct n as [|[|n]]; simpl in Hf; [lia..|]. simpl in Ht. apply runs_inc_m_S.
      pose proof (tin_nodup al hdr _ _ _ _ _ _ Ht) as Hn. csimpl in Hn. rewrite fmap_app in Hn. csimpl in Hn.
      pose proof (tin_hdr al hdr _ _ _ _ _ _ Ht) as Hh.
      pose proof (tin_node al hdr _ _ _ _ _ Top _ _ _ _ _ Ht) as Hx.
      assert (hdr ∉ addrs r) as N1.
      { intros ?; revert Hn; rewrite ?NoDup_cons, ?NoDup_app, ?NoDup_cons; set_solver. }
      simpl cpar. rbind. eapply (runs_get_rm hdr); [exact Hh|].
      assert (root r <> Some hdr) as Hrh. { intros Hr. apply right_child_in in Hr. done. }
      destruct (decide (rm = x)) as [->|Hne].
      + rewrite decide_True by done.
        rbind. unfold parent_of. rbind. eapply runs_root; [exact Hh|]. apply runs_deref.
        apply runs_inc_m_S. rbind. eapply (runs_get_child al DR); [exact Hx|]. rewrite decide_False by done.
        unfold inc_tail_m. simpl. rbind. eapply (runs_get_rm hdr); [exact Hh|].
        rewrite decide_False by (intros Hne; by apply Hne). apply runs_ret. by apply HQ.
      + rewrite decide_False by congruence. unfold inc_tail_m. simpl.
        rbind. eapply (runs_get_child al DR); [exact Hx|]. rewrite decide_True by done. apply runs_ret. by apply HQ.
    - destruct n as [|n]; [lia|].
      pose proof (tin_node al hdr _ _ _ _ _ _ _ _ _ _ _ Ht) as Hx. simpl cpar in *.
      simpl plug in Ht, HQ'. destruct d; simpl in Hf.
      + pose proof (tin_node al hdr _ _ _ _ _ _ _ _ _ _ _ Ht) as Hy.
        pose proof (tin_nodup al hdr _ _ _ _ _ _ Ht) as Hn. apply NoDup_cons in Hn as [_ Hn].
        eapply (nodup_perm _ (x :: y :: addrs r ++ addrs s ++ addrs l ++ caddrs k)) in Hn.
        2: { rewrite addrs_plug. csimpl. rewrite !fmap_app. csimpl. rewrite ?fmap_app. csimpl. perm_solve. }
        apply runs_inc_m_S. rbind. eapply (runs_get_child al DR); [exact Hy|].
        rewrite decide_False.
        2: { intros Heq. apply right_child_in in Heq. apply NoDup_cons in Hn as [Hn _]. apply Hn. set_solver. }
        unfold inc_tail_m. simpl. rbind. eapply (runs_get_child al DR); [exact Hx|].
        rewrite decide_True.
        2: { intros Heq. apply right_child_in in Heq. apply NoDup_cons in Hn as [_ Hn]. apply NoDup_cons in Hn as [Hn _]. apply Hn. set_solver. }
        apply runs_ret. eapply HQ'; [done|done|done|simpl; lia].
      + pose proof (tin_node al hdr _ _ _ _ _ _ _ _ _ _ _ Ht) as Hy.
        apply runs_inc_m_S. rbind. eapply (runs_get_child al DR); [exact Hy|].
        rewrite decide_True by done. rbind. eapply (runs_parent_of al DR). { exact Hy. }
        eapply IH; [lia|exact Ht|exact HQ|].
        intros k' c0 y0 v0 l0 r0 n' E1 E0 E2 E3. eapply HQ'; [exact E1| |exact E2|simpl in *; lia].
        rewrite E0. simpl. by rewrite <-!(assoc_L (++)).
  Qed.

  (** One ++: what it takes, against how the place in the tree changes. *)
  Lemma increment_m_spec lm rm sz hf n k c x v l r w (Q : addr * nat -> W -> Prop) :
    tin lm rm sz (w_heap w) hf (plug k (Node c x v l r)) -> S (dr k) < n -> height r <= n ->
    (elems r ++ cpost k = [] -> forall n', Q (hdr, n') w) ->
    (forall k' c' y v' l' r' n', plug k' (Node c' y v' l' r') = plug k (Node c x v l r) ->
       cpre k' ++ elems l' = cpre k ++ elems l ++ [(x, v)] -> n' + 2 + dr k + dl k' = n + dr k' + dl k -> Q (y, n') w) ->
    runs (increment_m n x) w Q.
  Proof.
    intros Ht Hf Hr HQ HQ'. unfold increment_m.
    pose proof (tin_node al hdr _ _ _ _ _ _ _ _ _ _ _ Ht) as Hx.
    rbind. eapply (runs_get_child al DR); [exact Hx|].
    destruct r as [|cr ar vr lr rr]; simpl root; cbv iota.
    - rbind. eapply (runs_parent_of al DR); [exact Hx|].
      eapply inc_m_spec; [exact Hf|exact Ht|exact HQ|].
      intros k' c' y v' l' r' n' E1 E0 E2 E3. eapply HQ'; [exact E1|exact E0|lia].
    - eapply (minimum_m_spec _ _ _ _ _ (Frame DR c x v l k)); [exact Ht|simpl in Hr; lia|].
      intros k' c' y v' r' n' E1 E2 E3 E4. eapply HQ'; [exact E1| |simpl in *; lia].
      simpl. rewrite app_nil_r, E2. done.
  Qed.

  Lemma dec_m_spec sz hf n k c x v l r w (Q : addr * nat -> W -> Prop) :
    dl k < n -> tinE sz (w_heap w) hf (plug k (Node c x v l r)) -> cpre k <> [] ->
    (forall k' c' y v' l' r' n', plug k' (Node c' y v' l' r') = plug k (Node c x v l r) ->
       cpre k = cpre k' ++ elems l' ++ [(y, v')] -> dr k = S (dr k') -> n' + S (dl k) = n + dl k' -> Q (y, n') w) ->
    runs (dec_m n x (cpar hdr k)) w Q.
  Proof.
    revert n c x v l r. induction k as [|d c' y v' s k IH]; intros n c x v l r Hf Ht Hne HQ; [done|].
    destruct n as [|n]; [lia|]. simpl plug in Ht, HQ. simpl.
    destruct d; simpl in Hf.
    - pose proof (tin_node al hdr _ _ _ _ _ _ _ _ _ _ _ Ht) as Hy.
      rbind. eapply (runs_get_child al DL); [exact Hy|]. rewrite decide_True by done.
      rbind. eapply (runs_parent_of al DL); [exact Hy|]. eapply IH; [lia|exact Ht|done|].
      intros k' c0 y0 v0 l0 r0 n' E1 E0 E2 E3. eapply HQ; [exact E1|exact E0|exact E2|simpl in *; lia].
    - pose proof (tin_node al hdr _ _ _ _ _ _ _ _ _ _ _ Ht) as Hy.
      pose proof (tin_nodup al hdr _ _ _ _ _ _ Ht) as Hn. apply NoDup_cons in Hn as [_ Hn].
      eapply (nodup_perm _ (x :: y :: addrs r ++ addrs s ++ addrs l ++ caddrs k)) in Hn.
      2: { rewrite addrs_plug. csimpl. rewrite !fmap_app. csimpl. rewrite ?fmap_app. csimpl. perm_solve. }
      rbind. eapply (runs_get_child al DL); [exact Hy|].
      rewrite decide_False.
      2: { intros Heq. apply right_child_in in Heq. apply NoDup_cons in Hn as [Hn _]. apply Hn. set_solver. }
      apply runs_ret. eapply HQ; [done|done|done|simpl; lia].
  Qed.

  Lemma decrement_m_spec sz hf n k c x v l r w (Q : addr * nat -> W -> Prop) :
    tinE sz (w_heap w) hf (plug k (Node c x v l r)) -> rb (plug k (Node c x v l r)) ->
    cpre k ++ elems l <> [] -> dl k < n -> height l <= n ->
    (forall k' c' y v' l' r' n', plug k' (Node c' y v' l' r') = plug k (Node c x v l r) ->
       cpre k ++ elems l = cpre k' ++ elems l' ++ [(y, v')] -> n' + 2 + dl k + dr k' = n + dl k' + dr k -> Q (y, n') w) ->
    runs (decrement_m n x) w Q.
  Proof.
    intros Ht Hrb Hne Hf Hl HQ. unfold decrement_m.
    pose proof (tin_node al hdr _ _ _ _ _ _ _ _ _ _ _ Ht) as Hx.
    rbind. eapply (runs_get_color al DL); [exact Hx|]. rbind.
    assert (runs (if decide (c = Red) then
                  let! p := parent_of x in
                  let! pp := get_parent p in
                  ret (bool_decide (pp = Some x))
                else ret false) w (fun b w' => b = false /\ w' = w)) as Hh.
    { destruct (decide (c = Red)) as [->|Hc]; [|by apply runs_ret].
      destruct k as [|d c' y v' s k]; [by destruct Hrb as [Hc _]|].
      rbind. eapply (runs_parent_of al DL); [exact Hx|]. simpl cpar.
      pose proof (tin_ctx al hdr _ _ _ _ _ _ _ Ht) as Hctx. destruct Hctx as [_ (Hy & _)].
      rbind. eapply (runs_get_parent al d); [exact Hy|]. apply runs_ret. split; [|done].
      apply bool_decide_eq_false. intros [= Heq].
      pose proof (tin_nodup al hdr _ _ _ _ _ _ Ht) as Hn.
      rewrite addrs_plug in Hn. csimpl in Hn. rewrite fmap_app in Hn. csimpl in Hn.
      eapply (nodup_perm _ (x :: (hdr :: caddrs k) ++ (y :: addrs l ++ addrs r ++ addrs s))) in Hn.
      - apply NoDup_cons in Hn as [Hn _]. apply Hn. pose proof (cpar_mem hdr k) as Hin. rewrite Heq in Hin. set_solver.
      - destruct d; simpl; rewrite ?fmap_app; csimpl; rewrite ?fmap_app; csimpl; perm_solve. }
    eapply runs_mono; [exact Hh|]. cbv beta. intros ? ? [-> ->].
    rbind. eapply (runs_get_child al DL); [exact Hx|].
    destruct l as [|cl zl vl ll lr]; simpl root; cbv iota.
    - rbind. eapply (runs_parent_of al DR); [exact Hx|]. simpl in Hne. rewrite app_nil_r in Hne.
      eapply dec_m_spec; [exact Hf|exact Ht|done|].
      intros k' c' y v' l' r' n' E1 E0 E2 E3. eapply HQ; [exact E1|simpl elems; by rewrite app_nil_r|lia].
    - eapply (maximum_m_spec _ _ _ _ _ (Frame DL c x v r k)); [exact Ht|simpl in Hl; lia|].
      intros k' c' y v' l' n' E1 E2 E3 E4. eapply HQ; [exact E1| |simpl in *; lia].
      by rewrite E2.
  Qed.
  Lemma decrement_end_m_spec sz hf n t w (Q : addr * nat -> W -> Prop) :
    tinE sz (w_heap w) hf t -> t <> Leaf ->
    Q (last_of hdr (elems t), n) w -> runs (decrement_m n hdr) w Q.
  Proof.
    intros Ht Hne HQ. unfold decrement_m. destruct t as [|c x v l r]; [done|].
    pose proof (tin_hdr al hdr _ _ _ _ _ _ Ht) as Hh.
    pose proof (tin_node al hdr _ _ _ _ _ Top _ _ _ _ _ Ht) as Hx. simpl in Hx.
    rbind. eapply runs_get_field; [exact Hh|done|]. rewrite decide_True by done.
    rbind. rbind. unfold parent_of. rbind. eapply runs_root; [exact Hh|]. apply runs_deref.
    rbind. eapply (runs_get_parent al DL); [exact Hx|]. apply runs_ret. rewrite bool_decide_true by done.
    rbind. eapply (runs_get_rm hdr); [exact Hh|]. rbind. apply runs_deref. by apply runs_ret.
  Qed.

  Lemma elems_at k c x v l r : elems (plug k (Node c x v l r)) = (cpre k ++ elems l) ++ (x, v) :: elems r ++ cpost k.
  Proof. rewrite elems_plug. simpl. by rewrite <-!(assoc_L (++)). Qed.

  (** [m] times ++: every step takes two rounds, apart from what the turns on
      the way to the first and to the last place make up for. *)
  Lemma forward_m_spec lm rm sz hf t m n k c x v l r w (Q : addr * nat -> W -> Prop) :
    plug k (Node c x v l r) = t -> tin lm rm sz (w_heap w) hf t ->
    m <= S (length (elems r ++ cpost k)) ->
    (height t + 2 * m + dr k <= n + dl k \/ m = S (length (elems r ++ cpost k)) /\ 2 * m + dr k <= n + dl k) ->
    (forall n', Q (first_of hdr (drop m ((x, v) :: elems r ++ cpost k)), n') w) ->
    runs (forward_m m n x) w Q.
  Proof.
    revert n k c x v l r. induction m as [|m IH]; intros n k c x v l r Hp Ht Hm Hn HQ; simpl.
    - apply runs_ret. apply HQ.
    - pose proof (plug_height k (Node c x v l r)) as Hh. rewrite Hp in Hh. simpl in Hh.
      pose proof (dl_cpost k) as Hdl. pose proof (dr_dl_depth k) as Hd. pose proof (height_le r) as Hr. rewrite app_length in Hm, Hn.
      rbind. eapply increment_m_spec; [rewrite Hp; exact Ht|lia|lia| |].
      + intros He n'. apply (f_equal length) in He as Hl. rewrite app_length in Hl. simpl in Hl. assert (m = 0) as -> by lia.
        simpl. apply runs_ret. specialize (HQ n'). simpl in HQ. by rewrite He in HQ.
      + intros k' c' y v' l' r' n' E1 E0 E2. simpl.
        assert (elems r ++ cpost k = (y, v') :: elems r' ++ cpost k') as He.
        { apply (f_equal elems) in E1. rewrite !elems_at, E0 in E1.
          change ((x, v) :: elems r ++ cpost k) with ([(x, v)] ++ elems r ++ cpost k) in E1.
          rewrite <-!(assoc_L (++)) in E1. apply app_inv_head, app_inv_head in E1. by injection E1. }
        assert (length (elems r) + length (cpost k) = S (length (elems r' ++ cpost k'))) as Hl.
        { apply (f_equal length) in He. rewrite app_length in He. done. }
        eapply IH; [rewrite E1; exact Hp|exact Ht|lia|lia|]. intros n2. specialize (HQ n2). simpl in HQ. by rewrite He in HQ.
  Qed.

  Lemma backward_m_spec sz hf t m n k c x v l r w (Q : addr * nat -> W -> Prop) :
    plug k (Node c x v l r) = t -> tinE sz (w_heap w) hf t -> rb t ->
    m <= length (cpre k ++ elems l) ->
    (height t + 2 * m + dl k <= n + dr k \/ m = length (cpre k ++ elems l) /\ 2 * m + dl k <= n + dr k) ->
    (forall n', Q (last_of hdr (take (S (length (cpre k ++ elems l) - m)) (cpre k ++ elems l ++ [(x, v)])), n') w) ->
    runs (backward_m m n x) w Q.
  Proof.
    revert n k c x v l r. induction m as [|m IH]; intros n k c x v l r Hp Ht Hrb Hm Hn HQ; simpl.
    - apply runs_ret. specialize (HQ n). rewrite take_ge in HQ; [|rewrite (assoc_L (++)), !app_length; simpl; lia].
      rewrite (assoc_L (++)), last_snoc' in HQ. exact HQ.
    - pose proof (plug_height k (Node c x v l r)) as Hh. rewrite Hp in Hh. simpl in Hh.
      pose proof (dr_cpre k) as Hdr. pose proof (dr_dl_depth k) as Hd. pose proof (height_le l) as Hl.
      assert (length (cpre k ++ elems l) = length (cpre k) + length (elems l)) as Hlen by apply app_length.
      rbind. eapply decrement_m_spec; [rewrite Hp; exact Ht|by rewrite Hp| |lia|lia|].
      { intros He. rewrite He in Hm. simpl in Hm. lia. }
      intros k' c' y v' l' r' n' E1 E0 E2. simpl.
      assert (length (cpre k ++ elems l) = S (length (cpre k' ++ elems l'))) as Hl'.
      { rewrite E0, (assoc_L (++)), app_length. simpl. lia. }
      eapply IH; [rewrite E1; exact Hp|exact Ht|exact Hrb|lia|lia|]. intros n2. specialize (HQ n2).
      rewrite (assoc_L (++) (cpre k)), take_app_le in HQ by lia. rewrite E0 in HQ.
      replace (length (cpre k' ++ elems l') - m) with (length (cpre k' ++ elems l' ++ [(y, v')]) - S m); [exact HQ|].
      rewrite <-E0, Hl'. lia.
  Qed.
End amortised.

Section sets.
  Context {V : Type} (comp : V -> V -> bool).
  Notation W := (world (tcell V)).
  Notation sin := (sin comp).
  Implicit Types w : W.

  Lemma sin_height o xs h hf t : sin o xs h hf t -> height t <= 2 * Nat.log2 (S (length xs)).
  Proof. intros (_ & <- & Hrb & _). by apply rb_height. Qed.

  (** From anywhere *)
  Lemma forward_some o xs hf t i m n w (Q : addr * nat -> W -> Prop) :
    sin o xs (w_heap w) hf t -> i + m <= length xs -> 2 * m + 4 * Nat.log2 (S (length xs)) <= n ->
    (forall n', Q (tpos (t_hdr o) xs (i + m), n') w) ->
    runs (forward_m m n (tpos (t_hdr o) xs i)) w Q.
  Proof.
    intros Hs Hi Hn HQ. pose proof (sin_height _ _ _ _ _ Hs) as Hh. destruct Hs as (Ht & He & Hrb & _). subst xs.
    destruct m as [|m]. { simpl. apply runs_ret. specialize (HQ n). by rewrite Nat.add_0_r in HQ. }
    assert (i < length (elems t)) as Hi' by lia. apply lookup_lt_is_Some in Hi' as [[a v] Ha].
    rewrite (tpos_some _ _ _ _ _ Ha). destruct (find_ctx t i a v Ha) as (k & c & l & r & Heq & Hpre & Hpost).
    pose proof (plug_height k (Node c a v l r)) as Hp. rewrite <-Heq in Hp. pose proof (dr_dl_depth k) as Hd.
    eapply forward_m_spec; [symmetry; exact Heq|exact Ht| | |].
    - rewrite Hpost, drop_length. lia.
    - left. lia.
    - intros n'. specialize (HQ n'). rewrite tpos_first in HQ. rewrite Hpost.
      replace ((a, v) :: drop (S i) (elems t)) with (drop i (elems t)); [|by apply drop_S]. by rewrite drop_drop.
  Qed.
  (** All of them *)
  Lemma forward_all o xs hf t w (Q : addr * nat -> W -> Prop) :
    sin o xs (w_heap w) hf t -> (forall n', Q (t_hdr o, n') w) ->
    runs (forward_m (length xs) (2 * length xs) (tpos (t_hdr o) xs 0)) w Q.
  Proof.
    intros (Ht & He & Hrb & _) HQ. subst xs.
    destruct (elems t) as [|[a v] X] eqn:E. { simpl. apply runs_ret. apply (HQ 0). }
    assert (elems t !! 0 = Some (a, v)) as Ha by by rewrite E.
    destruct (find_ctx t 0 a v Ha) as (k & c & l & r & Heq & Hpre & Hpost). rewrite E in Hpre, Hpost. simpl in Hpre, Hpost. rewrite drop_0 in Hpost.
    apply app_eq_nil in Hpre as [Hpre _]. pose proof (dr_cpre k) as Hd. rewrite Hpre in Hd. simpl in Hd.
    rewrite <-E in Ht. unfold tpos. simpl fmap. simpl lookup. simpl default.
    eapply (forward_m_spec (t_alloc o) (t_hdr o)); [symmetry; exact Heq|exact Ht| | |].
    - rewrite Hpost. simpl. lia.
    - right. rewrite Hpost. simpl. lia.
    - intros n'. rewrite Hpost. simpl. rewrite drop_all. apply HQ.
  Qed.

  Lemma backward_some o xs hf t i m n w (Q : addr * nat -> W -> Prop) :
    sin o xs (w_heap w) hf t -> i <= length xs -> m <= i -> 2 * m + 4 * Nat.log2 (S (length xs)) <= n ->
    (forall n', Q (tpos (t_hdr o) xs (i - m), n') w) ->
    runs (backward_m m n (tpos (t_hdr o) xs i)) w Q.
  Proof.
    intros Hs Hi Hm Hn HQ. pose proof (sin_height _ _ _ _ _ Hs) as Hh. destruct Hs as (Ht & He & Hrb & _). subst xs.
    destruct m as [|m]. { simpl. apply runs_ret. specialize (HQ n). by rewrite Nat.sub_0_r in HQ. }
    assert (forall j m', j < length (elems t) -> m' <= j -> i - S m = j - m' -> m' <= S m ->
      runs (backward_m m' n (tpos (t_hdr o) (elems t) j)) w Q) as Hrun.
    { intros j m' Hj Hm' Heqj Hle. pose proof Hj as Hj'. apply lookup_lt_is_Some in Hj' as [[a v] Ha].
      rewrite (tpos_some _ _ _ _ _ Ha). destruct (find_ctx t j a v Ha) as (k & c & l & r & Heq & Hpre & Hpost).
      pose proof (plug_height k (Node c a v l r)) as Hp. rewrite <-Heq in Hp. pose proof (dr_dl_depth k) as Hd.
      assert (length (cpre k ++ elems l) = j) as Hlen. { rewrite Hpre, take_length. lia. }
      eapply (backward_m_spec (t_alloc o) (t_hdr o)); [symmetry; exact Heq|exact Ht|exact Hrb|lia|left; lia|].
      intros n'. specialize (HQ n'). rewrite tpos_last in HQ by lia. rewrite Hlen, (assoc_L (++)), Hpre.
      rewrite <-(take_S_r _ _ _ Ha), take_take. by replace (S (j - m') `min` S j) with (S (i - S m)) by lia. }
    destruct (decide (i = length (elems t))) as [->|Hne].
    - rewrite tpos_end by lia. simpl. rbind. eapply decrement_end_m_spec; [exact Ht|by intros ->; simpl in *; lia|]. simpl.
      assert (last_of (t_hdr o) (elems t) = tpos (t_hdr o) (elems t) (length (elems t) - 1)) as ->.
      { rewrite tpos_last by lia. by rewrite take_ge by lia. }
      apply Hrun; lia.
    - apply Hrun; lia.
  Qed.
  Lemma backward_all o xs hf t w (Q : addr * nat -> W -> Prop) :
    sin o xs (w_heap w) hf t -> (forall n', Q (tpos (t_hdr o) xs 0, n') w) ->
    runs (backward_m (length xs) (2 * length xs) (t_hdr o)) w Q.
  Proof.
    intros (Ht & He & Hrb & _) HQ. subst xs. destruct (length (elems t)) as [|m] eqn:E.
    { simpl. apply runs_ret. specialize (HQ 0). rewrite tpos_end in HQ by lia. exact HQ. }
    simpl backward_m. rbind. rewrite <-E in *. eapply decrement_end_m_spec; [exact Ht|by intros ->|]. simpl snd. simpl fst.
    assert (m < length (elems t)) as Hj by lia. apply lookup_lt_is_Some in Hj as [[a v] Ha].
    assert (last_of (t_hdr o) (elems t) = a) as ->.
    { rewrite <-(tpos_some (t_hdr o) _ _ _ _ Ha), tpos_last by lia. by rewrite take_ge by lia. }
    destruct (find_ctx t m a v Ha) as (k & c & l & r & Heq & Hpre & Hpost).
    assert (length (cpre k ++ elems l) = m) as Hlen. { rewrite Hpre, take_length. lia. }
    assert (dl k = 0) as Hdl.
    { pose proof (dl_cpost k). apply (f_equal length) in Hpost. rewrite drop_length, app_length in Hpost. lia. }
    eapply (backward_m_spec (t_alloc o) (t_hdr o)); [symmetry; exact Heq|exact Ht|exact Hrb|lia|right; lia|].
    intros n'. specialize (HQ n'). rewrite tpos_last in HQ by lia. rewrite Hlen, (assoc_L (++)), Hpre.
    rewrite <-(take_S_r _ _ _ Ha), take_take. by replace (S (m - m) `min` S m) with 1 by lia.
  Qed.
End sets.
