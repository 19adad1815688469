(** * Searching the tree *)
From Verif Require Export RbWalk.

(** ** Ascending sequences *)
Section asc.
  Context {V : Type} (comp : V -> V -> bool).
  Implicit Types xs ys : list (addr * V).

  Fixpoint asc xs : Prop :=
    match xs with [] => True | p :: xs => (forall q, q ∈ xs -> comp p.2 q.2 = true) /\ asc xs end.
  Lemma asc_app xs ys :
    asc (xs ++ ys) <-> asc xs /\ asc ys /\ forall p q, p ∈ xs -> q ∈ ys -> comp p.2 q.2 = true.
  Proof.
    induction xs as [|p xs IH]; simpl; [set_solver|]. rewrite IH. split.
    - intros (H1 & H2 & H3 & H4). split_and!; [set_solver|done|done|]. intros p' q' [->|Hp]%elem_of_cons Hq; [|auto].
      apply H1. set_solver.
    - intros ((H1 & H2) & H3 & H4). split_and!; [|done|done|].
      + intros q [Hq|Hq]%elem_of_app; [auto|]. apply H4; set_solver.
      + intros p' q' ? ?. apply H4; set_solver.
  Qed.
  Lemma asc_ascending xs : asc xs <-> ascending comp xs.*2.
  Proof.
    split.
    - induction xs as [|p xs IH]; simpl; [intros _ i j x y _ Hi; done|]. intros (H1 & H2).
      intros [|i] [|j] x y Hij Hi Hj; simpl in *; [lia| |lia|].
      + simplify_eq. apply elem_of_list_lookup_2 in Hj. apply elem_of_list_fmap in Hj as (q & -> & Hq). auto.
      + apply (IH H2 i j); [lia|done|done].
    - induction xs as [|p xs IH]; simpl; [done|]. intros Ha. split.
      + intros q Hq. apply elem_of_list_lookup in Hq as (j & Hj). apply (Ha 0 (S j)); [lia|done|].
        simpl. by rewrite list_lookup_fmap, Hj.
      + apply IH. intros i j x y Hij Hi Hj. apply (Ha (S i) (S j)); [lia|done|done].
  Qed.

  (** Drop the elements in front that satisfy [p]. *)
  Fixpoint skip (p : V -> bool) xs : list (addr * V) :=
    match xs with [] => [] | x :: xs' => if p x.2 then skip p xs' else xs end.
  Lemma skip_all p xs ys : (forall x, x ∈ xs -> p x.2 = true) -> skip p (xs ++ ys) = skip p ys.
  Proof. induction xs as [|x xs IH]; intros Hp; simpl; [done|]. rewrite Hp by set_solver. apply IH. set_solver. Qed.
  Lemma skip_stop p xs y ys : p y.2 = false -> skip p (xs ++ y :: ys) = skip p xs ++ y :: ys.
  Proof. intros Hp. induction xs as [|x xs IH]; simpl; [by rewrite Hp|]. destruct (p x.2); done. Qed.
  Lemma skip_spec p xs : exists i, skip p xs = drop i xs /\ i <= length xs /\
    (forall j x, j < i -> xs !! j = Some x -> p x.2 = true) /\
    (forall x, xs !! i = Some x -> p x.2 = false).
  Proof.
    induction xs as [|x xs (i & H1 & H2 & H3 & H4)]; [exists 0; simpl; split_and!; [done|lia|lia|done]|].
    simpl. destruct (p x.2) eqn:E.
    - exists (S i). simpl. split_and!; [done|lia| |done].
      intros [|j] y Hj Hy; simpl in *; [congruence|]. eapply H3; [|done]. lia.
    - exists 0. simpl. split_and!; [done|lia|lia|congruence].
  Qed.

  (** [p] holds of a prefix. *)
  Definition down (p : V -> bool) xs : Prop :=
    forall X x Y, xs = X ++ x :: Y -> p x.2 = true -> forall y, y ∈ X -> p y.2 = true.
  Lemma down_app p xs ys : down p (xs ++ ys) -> down p xs /\ down p ys.
  Proof.
    intros Hd. split.
    - intros X x Y -> Hp. apply (Hd X x (Y ++ ys)); [by rewrite <-(assoc_L (++))|done].
    - intros X x Y -> Hp y Hy. apply (Hd (xs ++ X) x Y); [by rewrite (assoc_L (++))|done|set_solver].
  Qed.
  Context (Hswo : swo comp).
  Lemma comp_trans x y z : comp x y = true -> comp y z = true -> comp x z = true.
  Proof. apply Hswo. Qed.
  Lemma comp_asym x y : comp x y = true -> comp y x = false.
  Proof.
    intros H1. destruct (comp y x) eqn:E; [|done]. destruct Hswo as (Hi & Ht & _).
    rewrite <-(Hi x). symmetry. by eapply Ht.
  Qed.
  Lemma asc_down_lower xs v : asc xs -> down (fun u => comp u v) xs.
  Proof.
    intros Ha X x Y -> Hx y Hy. apply asc_app in Ha as (_ & _ & Ha).
    eapply comp_trans; [|exact Hx]. apply Ha; set_solver.
  Qed.
  Lemma asc_down_upper xs v : asc xs -> down (fun u => negb (comp v u)) xs.
  Proof.
    intros Ha X x Y -> Hx y Hy. apply asc_app in Ha as (_ & _ & Ha).
    apply negb_true_iff. apply negb_true_iff in Hx. destruct (comp v y.2) eqn:E; [|done].
    rewrite <-Hx. symmetry. eapply comp_trans; [exact E|]. apply Ha; set_solver.
  Qed.
End asc.

Section search.
  Context {V : Type} {L : limit} (comp : V -> V -> bool) (al : alloc_id) (hdr : addr).
  Notation H := (gmap addr (tcell V)).
  Notation W := (world (tcell V)).
  Implicit Types h hf : H.
  Implicit Types w : W.
  Implicit Types t s : tree V.
  Implicit Types n : nat.
  Implicit Types k : @ctx V.
  Notation tin := (tin al hdr).
  Notation addrs t := (elems t).*1.
  Notation tinE n h hf t := (tin (first_of hdr (elems t)) (last_of hdr (elems t)) n h hf t).
  (** The value [kv] of the argument [kt] can be read. *)
  Notation reads w kt kv := (forall Q : V -> W -> Prop, Q kv w -> runs (read_targ kt) w Q).

  Lemma runs_tread a c w v al' (Q : V -> W -> Prop) :
    w_heap w !! a = Some c -> tn_body c = TNode al' (Some v) -> Q v w -> runs (tread a) w Q.
  Proof. intros Ha Hc HQ. unfold tread. rbind. eapply runs_load; [done|]. rewrite Hc. by apply runs_ret. Qed.
  Lemma runs_tread_node lm rm n hf k c a v l r w (Q : V -> W -> Prop) :
    tin lm rm n (w_heap w) hf (plug k (Node c a v l r)) -> Q v w -> runs (tread a) w Q.
  Proof. intros Ht HQ. eapply runs_tread; [exact (tin_node al hdr _ _ _ _ _ _ _ _ _ _ _ Ht)|done|done]. Qed.

  Lemma lower_loop_spec lm rm n hf fuel k t y kt kv w (Q : addr -> W -> Prop) :
    tin lm rm n (w_heap w) hf (plug k t) -> reads w kt kv -> height t < fuel ->
    down (fun u => comp u kv) (elems t) ->
    Q (first_of y (skip (fun u => comp u kv) (elems t))) w ->
    runs (lower_loop comp fuel (root t) y kt) w Q.
  Proof.
    revert k t y. induction fuel as [|fuel IH]; intros k t y Ht Hk Hf Hd HQ; [lia|].
    destruct t as [|c a v l r]; [by apply runs_ret|]. simpl in Hf. simpl root. simpl lower_loop.
    pose proof (tin_node al hdr _ _ _ _ _ _ _ _ _ _ _ Ht) as Ha.
    simpl in Hd, HQ. pose proof (Hd (elems l) (a, v) (elems r) eq_refl) as Hpre.
    apply down_app in Hd as [Hdl Hdr]. apply (down_app _ [(a, v)]) in Hdr as [_ Hdr].
    rbind. eapply runs_tread_node; [exact Ht|]. rbind. apply Hk.
    destruct (comp v kv) eqn:E; simpl negb; cbv iota.
    - rbind. eapply (runs_get_child al DR); [exact Ha|].
      eapply (IH (Frame DR c a v l k)); [exact Ht|done|lia|done|].
      rewrite skip_all in HQ by auto. simpl in HQ. rewrite E in HQ. exact HQ.
    - rbind. eapply (runs_get_child al DL); [exact Ha|].
      eapply (IH (Frame DL c a v r k)); [exact Ht|done|lia|done|].
      rewrite skip_stop in HQ by done. destruct (skip _ (elems l)); done.
  Qed.
  Lemma upper_loop_spec lm rm n hf fuel k t y kt kv w (Q : addr -> W -> Prop) :
    tin lm rm n (w_heap w) hf (plug k t) -> reads w kt kv -> height t < fuel ->
    down (fun u => negb (comp kv u)) (elems t) ->
    Q (first_of y (skip (fun u => negb (comp kv u)) (elems t))) w ->
    runs (upper_loop comp fuel (root t) y kt) w Q.
  Proof.
    revert k t y. induction fuel as [|fuel IH]; intros k t y Ht Hk Hf Hd HQ; [lia|].
    destruct t as [|c a v l r]; [by apply runs_ret|]. simpl in Hf. simpl root. simpl upper_loop.
    pose proof (tin_node al hdr _ _ _ _ _ _ _ _ _ _ _ Ht) as Ha.
    simpl in Hd, HQ. pose proof (Hd (elems l) (a, v) (elems r) eq_refl) as Hpre. simpl in Hpre.
    apply down_app in Hd as [Hdl Hdr]. apply (down_app _ [(a, v)]) in Hdr as [_ Hdr].
    rbind. eapply runs_tread_node; [exact Ht|]. rbind. apply Hk.
    destruct (comp kv v) eqn:E; cbv iota.
    - rbind. eapply (runs_get_child al DL); [exact Ha|].
      eapply (IH (Frame DL c a v r k)); [exact Ht|done|lia|done|].
      rewrite skip_stop in HQ by (simpl; by rewrite E). destruct (skip _ (elems l)); done.
    - rbind. eapply (runs_get_child al DR); [exact Ha|].
      eapply (IH (Frame DR c a v l k)); [exact Ht|done|lia|done|].
      rewrite skip_all in HQ by auto. simpl in HQ. rewrite E in HQ. exact HQ.
  Qed.

  Lemma equal_range_loop_spec lm rm n hf fuel k t y kt kv w (Q : addr * addr -> W -> Prop) :
    tin lm rm n (w_heap w) hf (plug k t) -> reads w kt kv -> height t < fuel -> height t < rounds (size (w_heap w)) ->
    swo comp -> down (fun u => comp u kv) (elems t) -> down (fun u => negb (comp kv u)) (elems t) ->
    Q (first_of y (skip (fun u => comp u kv) (elems t)), first_of y (skip (fun u => negb (comp kv u)) (elems t))) w ->
    runs (equal_range_loop comp fuel (root t) y kt) w Q.
  Proof.
    intros Ht Hk Hf Hf' Hswo. revert k t y Ht Hf Hf'. induction fuel as [|fuel IH]; intros k t y Ht Hf Hf' Hlo Hup HQ; [lia|].
    destruct t as [|c a v l r]; [by apply runs_ret|]. simpl in Hf, Hf'. simpl root. simpl equal_range_loop.
    pose proof (tin_node al hdr _ _ _ _ _ _ _ _ _ _ _ Ht) as Ha.
    simpl in Hlo, Hup, HQ.
    pose proof (Hlo (elems l) (a, v) (elems r) eq_refl) as Hplo. simpl in Hplo.
    pose proof (Hup (elems l) (a, v) (elems r) eq_refl) as Hpup. simpl in Hpup.
    apply down_app in Hlo as [Hlol Hlor]. apply (down_app _ [(a, v)]) in Hlor as [_ Hlor].
    apply down_app in Hup as [Hupl Hupr]. apply (down_app _ [(a, v)]) in Hupr as [_ Hupr].
    rbind. eapply runs_tread_node; [exact Ht|]. rbind. apply Hk.
    destruct (comp v kv) eqn:E.
    - rbind. eapply (runs_get_child al DR); [exact Ha|].
      eapply (IH (Frame DR c a v l k)); [exact Ht|lia|lia|done|done|].
      pose proof (comp_asym comp Hswo _ _ E) as E'. rewrite E' in Hpup.
      rewrite skip_all in HQ by auto. rewrite (skip_all (fun u => negb _)) in HQ by auto. simpl in HQ.
      rewrite E, E' in HQ. exact HQ.
    - destruct (comp kv v) eqn:E'.
      + rbind. eapply (runs_get_child al DL); [exact Ha|].
        eapply (IH (Frame DL c a v r k)); [exact Ht|lia|lia|done|done|].
        rewrite skip_stop in HQ by done. rewrite (skip_stop (fun u => negb _)) in HQ by (simpl; by rewrite E').
        destruct (skip _ (elems l)), (skip (fun u => negb _) (elems l)); exact HQ.
      + rbind. eapply (runs_get_child al DL); [exact Ha|]. rbind. eapply (runs_get_child al DR); [exact Ha|].
        rbind. unfold m_lower_bound. rbind. apply runs_tree_fuel.
        eapply (lower_loop_spec _ _ _ _ _ (Frame DL c a v r k)); [exact Ht|done|lia|done|].
        rbind. unfold m_upper_bound. rbind. apply runs_tree_fuel.
        eapply (upper_loop_spec _ _ _ _ _ (Frame DR c a v l k)); [exact Ht|done|lia|done|].
        apply runs_ret.
        rewrite skip_stop in HQ by done. rewrite (skip_all (fun u => negb _)) in HQ by auto. simpl in HQ. rewrite E' in HQ.
        simpl in HQ. destruct (skip _ (elems l)); exact HQ.
  Qed.

  Definition goes_left k : bool := match k with Frame DR _ _ _ _ _ => false | _ => true end.
  Lemma unique_pos_spec lm rm n hf fuel k t kt kv w (Q : addr * bool -> W -> Prop) :
    tin lm rm n (w_heap w) hf (plug k t) -> reads w kt kv -> height t < fuel ->
    swo comp -> asc comp (elems (plug k t)) ->
    (forall p, p ∈ cpre k -> comp kv p.2 = false) -> (forall p, p ∈ cpost k -> comp kv p.2 = true) ->
    (forall k', plug k' Leaf = plug k t ->
      (forall p, p ∈ cpre k' -> comp kv p.2 = false) -> (forall p, p ∈ cpost k' -> comp kv p.2 = true) ->
      Q (cpar hdr k', goes_left k') w) ->
    runs (unique_pos_loop comp fuel (root t) (cpar hdr k) (goes_left k) kt) w Q.
  Proof.
    intros Ht Hk Hf Hswo. revert k t Ht Hf. induction fuel as [|fuel IH]; intros k t Ht Hf Ha Hpre Hpost HQ; [lia|].
    destruct t as [|c a v l r]; [apply runs_ret; by apply HQ|]. simpl in Hf. simpl root. simpl unique_pos_loop.
    pose proof (tin_node al hdr _ _ _ _ _ _ _ _ _ _ _ Ht) as Hx.
    rbind. apply Hk. rbind. eapply runs_tread_node; [exact Ht|].
    pose proof (asc_down_upper comp Hswo _ kv Ha) as Hup.
    rewrite elems_plug in Hup. simpl in Hup.
    destruct (comp kv v) eqn:E; cbv iota.
    - rbind. eapply (runs_get_child al DL); [exact Hx|].
      eapply (IH (Frame DL c a v r k)); [exact Ht|lia|exact Ha|exact Hpre| |exact HQ].
      simpl. intros p [Hp|[Hp|Hp]%elem_of_app]%elem_of_cons; [by rewrite Hp| |auto].
      destruct (comp kv p.2) eqn:Ep; [done|]. apply elem_of_list_split in Hp as (R1 & R2 & Hr).
      assert (negb (comp kv v) = true) as Hcon; [|by rewrite E in Hcon].
      refine (Hup (cpre k ++ elems l ++ (a, v) :: R1) p (R2 ++ cpost k) _ _ (a, v) _).
      + rewrite Hr. repeat (rewrite <-(assoc_L (++)); simpl). done.
      + by rewrite Ep.
      + set_solver.
    - rbind. eapply (runs_get_child al DR); [exact Hx|].
      eapply (IH (Frame DR c a v l k)); [exact Ht|lia|exact Ha| |exact Hpost|exact HQ].
      simpl. intros p [Hp|[Hp|Hp]%elem_of_app]%elem_of_app; [auto| |apply elem_of_list_singleton in Hp as ->; done].
      apply negb_true_iff.
      refine (Hup (cpre k ++ elems l) (a, v) (elems r ++ cpost k) _ _ p _).
      + repeat (rewrite <-(assoc_L (++)); simpl). done.
      + simpl. by rewrite E.
      + set_solver.
  Qed.
End search.
