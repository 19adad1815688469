(** * Comparing two trees: proofs *)
From Verif Require Export RbCmpModel RbMulti AlgoProofs.
From Verif Require Import RbHist.

Section cmp.
  Context {V : Type}.
  Notation W := (world (tcell V)).
  Implicit Types w : W.
  Implicit Types o : tset.
  Implicit Types xs ys : list (addr * V).

  Fixpoint eqs (eqb : V -> V -> bool) (l r : list V) : bool :=
    match l, r with
    | x :: l, y :: r => if eqb x y then eqs eqb l r else false
    | _, _ => true
    end.

  Lemma eqs_spec eqb l r : length l = length r -> eqs eqb l r = true <-> Forall2 (fun x y => eqb x y = true) l r.
  Proof.
    revert r. induction l as [|x l IH]; intros [|y r] Hl; simpl in Hl; [|lia|lia|]; simpl.
    - split; [constructor|done].
    - rewrite Forall2_cons, <-IH by lia. destruct (eqb x y); intuition done.
  Qed.

  Lemma drop_lookup_vals xs i a v : xs !! i = Some (a, v) -> drop i xs.*2 = v :: drop (S i) xs.*2.
  Proof. intros Hi. apply drop_S. by rewrite list_lookup_fmap, Hi. Qed.

  Lemma tequal_loop_spec (c1 c2 eqb : V -> V -> bool) o xs hf t o' ys hf' t' fuel i w (Q : bool -> W -> Prop) :
    sin c1 o xs (w_heap w) hf t -> sin c2 o' ys (w_heap w) hf' t' -> length xs = length ys ->
    i <= length xs -> length xs - i < fuel ->
    Q (eqs eqb (drop i xs.*2) (drop i ys.*2)) w ->
    runs (tequal_loop eqb fuel (tpos (t_hdr o) xs i) (t_end o) (tpos (t_hdr o') ys i)) w Q.
  Proof.
    intros Hs Hs' Hl. revert i Q. induction fuel as [|fuel IH]; intros i Q Hi Hf HQ; [lia|]. simpl.
    destruct (xs !! i) as [[a v]|] eqn:Ei.
    - pose proof (lookup_lt_Some _ _ _ Ei) as Hlt. destruct (lookup_lt_is_Some_2 ys i) as [[b u] Ej]; [lia|].
      rewrite decide_False by (by eapply (tpos_ne c1)).
      rewrite (drop_lookup_vals _ _ _ _ Ei), (drop_lookup_vals _ _ _ _ Ej) in HQ. simpl in HQ.
      rbind. rewrite (tpos_some _ _ _ _ _ Ei) at 1. eapply tread_spec; [exact Hs|done|].
      rbind. rewrite (tpos_some _ _ _ _ _ Ej) at 1. eapply tread_spec; [exact Hs'|done|].
      destruct (eqb v u); simpl; [|by apply runs_ret].
      rbind. eapply (RbSet.runs_inc c1); [exact Hs|done|]. rbind. eapply (RbSet.runs_inc c2); [exact Hs'|lia|].
      apply IH; [lia|lia|done].
    - apply lookup_ge_None in Ei. rewrite tpos_end by done. rewrite decide_True by done. apply runs_ret.
      by rewrite drop_ge in HQ by (by rewrite fmap_length).
  Qed.

  Lemma tlex_loop_spec (c1 c2 less : V -> V -> bool) o xs hf t o' ys hf' t' fuel i w (Q : bool -> W -> Prop) :
    sin c1 o xs (w_heap w) hf t -> sin c2 o' ys (w_heap w) hf' t' -> length xs - i < fuel ->
    Q (lexb less (drop i xs.*2) (drop i ys.*2)) w ->
    runs (tlex_loop less fuel (tpos (t_hdr o) xs i) (t_end o) (tpos (t_hdr o') ys i) (t_end o')) w Q.
  Proof.
    intros Hs Hs'. revert i Q. induction fuel as [|fuel IH]; intros i Q Hf HQ; [lia|]. simpl.
    destruct (xs !! i) as [[a v]|] eqn:Ei, (ys !! i) as [[b u]|] eqn:Ej.
    - pose proof (lookup_lt_Some _ _ _ Ei) as Hi. pose proof (lookup_lt_Some _ _ _ Ej) as Hj.
      rewrite decide_True by (split; [by eapply (tpos_ne c1)|by eapply (tpos_ne c2)]).
      rewrite (drop_lookup_vals _ _ _ _ Ei), (drop_lookup_vals _ _ _ _ Ej) in HQ. simpl in HQ.
      pose proof (tpos_some (t_hdr o) _ _ _ _ Ei) as Ha. pose proof (tpos_some (t_hdr o') _ _ _ _ Ej) as Hb.
      rbind. rewrite Ha at 1. eapply tread_spec; [exact Hs|done|]. rbind. rewrite Hb at 1. eapply tread_spec; [exact Hs'|done|].
      destruct (less v u); [by apply runs_ret|].
      rbind. rewrite Hb at 1. eapply tread_spec; [exact Hs'|done|]. rbind. rewrite Ha at 1. eapply tread_spec; [exact Hs|done|].
      destruct (less u v); [by apply runs_ret|].
      rbind. eapply (RbSet.runs_inc c1); [exact Hs|done|]. rbind. eapply (RbSet.runs_inc c2); [exact Hs'|done|].
      apply IH; [lia|done].
    - pose proof (lookup_lt_Some _ _ _ Ei) as Hi. apply lookup_ge_None in Ej. rewrite (tpos_end (t_hdr o') ys) by done.
      rewrite decide_False by (by intros [_ ?]). apply runs_ret. rewrite bool_decide_false by (by intros [_ ?]).
      rewrite (drop_ge ys.*2) in HQ by (by rewrite fmap_length). by destruct (drop i xs.*2).
    - pose proof (lookup_lt_Some _ _ _ Ej) as Hj. apply lookup_ge_None in Ei. rewrite (tpos_end (t_hdr o) xs) by done.
      rewrite decide_False by (by intros [? _]). apply runs_ret.
      rewrite bool_decide_true by (split; [done|by eapply (tpos_ne c2)]).
      rewrite (drop_ge xs.*2) in HQ by (by rewrite fmap_length). by rewrite (drop_lookup_vals _ _ _ _ Ej) in HQ.
    - apply lookup_ge_None in Ei, Ej. rewrite !tpos_end by done. rewrite decide_False by (by intros [? _]). apply runs_ret.
      rewrite bool_decide_false by (by intros [_ ?]). by rewrite !drop_ge in HQ by (by rewrite fmap_length).
  Qed.

  Lemma t_eq_spec (c1 c2 eqb : V -> V -> bool) o xs hf t o' ys hf' t' w :
    sin c1 o xs (w_heap w) hf t -> sin c2 o' ys (w_heap w) hf' t' ->
    t_eq eqb o o' w = Done (if decide (length xs = length ys) then eqs eqb xs.*2 ys.*2 else false) w.
  Proof.
    intros Hs Hs'. apply t_runs_state. intros Q HQ. unfold t_eq. rbind. eapply size_spec; [exact Hs|].
    rbind. eapply size_spec; [exact Hs'|]. destruct (decide (length xs = length ys)) as [Hl|Hl]; [|by apply runs_ret].
    rbind. eapply begin_spec; [exact Hs|]. rbind. eapply begin_spec; [exact Hs'|]. rbind. apply runs_cell_fuel.
    eapply tequal_loop_spec; [exact Hs|exact Hs'|done|lia| |done]. pose proof (sin_fuel _ _ _ _ _ _ Hs). lia.
  Qed.
  Lemma t_lt_spec (c1 c2 less : V -> V -> bool) o xs hf t o' ys hf' t' w :
    sin c1 o xs (w_heap w) hf t -> sin c2 o' ys (w_heap w) hf' t' ->
    t_lt less o o' w = Done (lexb less xs.*2 ys.*2) w.
  Proof.
    intros Hs Hs'. apply t_runs_state. intros Q HQ. unfold t_lt.
    rbind. eapply begin_spec; [exact Hs|]. rbind. eapply begin_spec; [exact Hs'|]. rbind. apply runs_cell_fuel.
    eapply tlex_loop_spec; [exact Hs|exact Hs'| |done]. pose proof (sin_fuel _ _ _ _ _ _ Hs). lia.
  Qed.
End cmp.
