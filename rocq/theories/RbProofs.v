(** * Proofs about the tree model: cells, contexts and their surgery *)
From Verif Require Export RbSpec Perm.

(** ** Telling disjoint lists apart: every address carries the number of the
    list it is in *)
Fixpoint tags (f : addr -> nat) (i : nat) (Ls : list (list addr)) : Prop :=
  match Ls with
  | [] => True
  | L :: Ls => (forall a, a ∈ L -> f a = i) /\ tags f (S i) Ls
  end.
Lemma tags_ext f g i Ls : (forall a, a ∈ concat Ls -> g a = f a) -> tags f i Ls -> tags g i Ls.
Proof.
  revert i. induction Ls as [|L Ls IH]; intros i Hfg; [done|]. simpl. intros [H1 H2]. split.
  - intros a Ha. rewrite Hfg; [by apply H1|]. simpl. set_solver.
  - apply IH; [|done]. intros a Ha. apply Hfg. simpl. set_solver.
Qed.
Lemma nodup_tags i Ls : NoDup (concat Ls) -> exists f, tags f i Ls.
Proof.
  revert i. induction Ls as [|L Ls IH]; intros i; [by exists (fun _ => 0)|].
  simpl. rewrite NoDup_app. intros (_ & Hd & Hn). destruct (IH (S i) Hn) as [f Hf].
  exists (fun a => if decide (a ∈ L) then i else f a). split.
  - intros a Ha. by rewrite decide_True.
  - eapply tags_ext; [|done]. intros a Ha. rewrite decide_False; [done|]. intros HL. by apply (Hd a).
Qed.

Lemma nodup_perm {A} (l l' : list A) : l ≡ₚ l' -> NoDup l -> NoDup l'.
Proof. by intros ->. Qed.

(** disequalities and non-memberships from tags *)
Ltac tag_facts :=
  repeat match goal with
    | Hf : (forall a, a ∈ [?x] -> ?f a = _) |- _ =>
        pose proof (Hf x (proj2 (elem_of_list_singleton x x) eq_refl)); clear Hf
    end.
Ltac tag_inst :=
  repeat match goal with
    | Ha : ?a ∈ ?L, Hf : (forall a, a ∈ ?L -> ?f a = _) |- _ => apply Hf in Ha
    end.
Ltac tag_solve :=
  solve [ intros; subst; tag_inst; congruence
        | intros; intros ?; subst; tag_inst; congruence ].

Section tree.
  Context {V : Type} (cf : cfg V) (al : alloc_id) (hdr : addr).
  Notation H := (gmap addr (tcell V)).
  Notation W := (world (tcell V)).
  Implicit Types h hf : H.
  Implicit Types w : W.
  Implicit Types t s : tree V.
  Implicit Types lm rm : addr.
  Implicit Types n : nat.

  (** ** Directions *)

  Inductive dir := DL | DR.
  Definition flip (d : dir) : dir := match d with DL => DR | DR => DL end.
  Definition get_child (d : dir) : addr -> M (tcell V) (option addr) :=
    match d with DL => get_left | DR => get_right end.
  Definition set_child (d : dir) : addr -> option addr -> M (tcell V) unit :=
    match d with DL => set_left | DR => set_right end.
  Definition nodeD (d : dir) (c : color) (a : addr) (v : V) (t s : tree V) : tree V :=
    match d with DL => Node c a v t s | DR => Node c a v s t end.
  Lemma nodeD_flip d c a v t s : nodeD (flip d) c a v t s = nodeD d c a v s t.
  Proof. by destruct d. Qed.

  Definition ncell (c : color) (p : addr) (l r : option addr) (v : V) : tcell V :=
    TCell (Some c) (Some (Some p)) (Some l) (Some r) (TNode al (Some v)).
  Definition ncellD (d : dir) (c : color) (p : addr) (l r : option addr) (v : V) : tcell V :=
    match d with DL => ncell c p l r v | DR => ncell c p r l v end.
  Definition hcell (o : option addr) (lm rm : addr) (n : nat) : tcell V :=
    TCell (Some Red) (Some o) (Some (Some lm)) (Some (Some rm)) (THead n).

  Notation addrs t := (elems t).*1.
  Notation tat := (tree_at al).

  Lemma root_nodeD d c a v t s : root (nodeD d c a v t s) = Some a.
  Proof. by destruct d. Qed.
  Lemma tcol_nodeD d c a v t s : tcol (nodeD d c a v t s) = c.
  Proof. by destruct d. Qed.
  Lemma tat_nodeD h p d c a v t s :
    tat h p (nodeD d c a v t s) <->
    h !! a = Some (ncellD d c p (root t) (root s) v) /\ tat h a t /\ tat h a s.
  Proof. destruct d; simpl; tauto. Qed.
  Lemma bal_nodeD d n c a v t s : bal n (nodeD d c a v t s) <-> bal n (Node c a v t s).
  Proof. destruct d; simpl; [done|]. destruct c; naive_solver. Qed.
  Lemma nored_nodeD d c a v t s : nored (nodeD d c a v t s) <-> nored (Node c a v t s).
  Proof. destruct d; simpl; [done|]. tauto. Qed.

  (** ** Contexts *)

  Inductive ctx :=
  | Top
  | Frame (d : dir) (c : color) (a : addr) (v : V) (s : tree V) (k : ctx).
  Implicit Types k : ctx.

  Fixpoint plug k t : tree V :=
    match k with
    | Top => t
    | Frame d c a v s k => plug k (nodeD d c a v t s)
    end.
  Definition cpar (p0 : addr) k : addr :=
    match k with Top => p0 | Frame _ _ a _ _ _ => a end.
  Fixpoint croot k (o : option addr) : option addr :=
    match k with Top => o | Frame _ _ a _ _ k => croot k (Some a) end.
  Fixpoint cpre k : list (addr * V) :=
    match k with
    | Top => []
    | Frame DL _ _ _ _ k => cpre k
    | Frame DR _ a v s k => cpre k ++ elems s ++ [(a, v)]
    end.
  Fixpoint cpost k : list (addr * V) :=
    match k with
    | Top => []
    | Frame DL _ a v s k => (a, v) :: elems s ++ cpost k
    | Frame DR _ _ _ _ k => cpost k
    end.
  Fixpoint depth k : nat := match k with Top => 0 | Frame _ _ _ _ _ k => S (depth k) end.

  Lemma elems_plug k t : elems (plug k t) = cpre k ++ elems t ++ cpost k.
  Proof.
    revert t. induction k as [|d c a v s k IH]; intros t; simpl.
    - by rewrite app_nil_r.
    - rewrite IH. destruct d; simpl; by rewrite <-?(assoc_L (++)).
  Qed.
  Lemma root_plug k t : root (plug k t) = croot k (root t).
  Proof.
    revert t. induction k as [|d c a v s k IH]; intros t; simpl; [done|]. by rewrite IH, root_nodeD.
  Qed.
  Lemma croot_in d c a v s k o : exists b, croot (Frame d c a v s k) o = Some b /\ b ∈ (cpre (Frame d c a v s k)).*1 ++ (cpost (Frame d c a v s k)).*1.
  Proof.
    revert d c a v s o. induction k as [|d' c' a' v' s' k IH]; intros d c a v s o.
    - exists a. split; [done|]. destruct d; simpl; rewrite ?fmap_app; set_solver.
    - destruct (IH d' c' a' v' s' (Some a)) as (b & Hb & Hin). exists b. split; [exact Hb|].
      destruct d; simpl in *; rewrite ?fmap_app in *; set_solver.
  Qed.
  Lemma cpar_in p0 d c a v s k : cpar p0 (Frame d c a v s k) ∈ (cpre (Frame d c a v s k)).*1 ++ (cpost (Frame d c a v s k)).*1.
  Proof. destruct d; simpl; rewrite ?fmap_app; set_solver. Qed.

  Fixpoint fr_at h (p0 : addr) k (o : option addr) : Prop :=
    match k with
    | Top => True
    | Frame d c a v s k =>
        h !! a = Some (ncellD d c (cpar p0 k) o (root s) v) /\
        tat h a s /\ fr_at h p0 k (Some a)
    end.

  Lemma tat_plug h p0 k t : tat h p0 (plug k t) <-> fr_at h p0 k (root t) /\ tat h (cpar p0 k) t.
  Proof.
    revert t. induction k as [|d c a v s k IH]; intros t; simpl; [tauto|].
    rewrite IH, tat_nodeD, root_nodeD. tauto.
  Qed.

  Lemma tat_ext h h' p t : (forall a, a ∈ addrs t -> h' !! a = h !! a) -> tat h p t -> tat h' p t.
  Proof.
    revert p. induction t as [|c a v l IHl r IHr]; intros p Hext; [done|].
    simpl in *. rewrite fmap_app in Hext; simpl in Hext.
    intros (Ha & Hl & Hr). split_and!.
    - rewrite Hext; [done|]. set_solver.
    - apply IHl; [|done]. intros x Hx. apply Hext. set_solver.
    - apply IHr; [|done]. intros x Hx. apply Hext. set_solver.
  Qed.
  Lemma fr_ext h h' p0 k o :
    (forall a, a ∈ (cpre k).*1 ++ (cpost k).*1 -> h' !! a = h !! a) -> fr_at h p0 k o -> fr_at h' p0 k o.
  Proof.
    revert o. induction k as [|d c a v s k IH]; intros o Hext; [done|].
    simpl. intros (Ha & Hs & Hk). split_and!.
    - rewrite Hext; [done|]. apply (cpar_in hdr).
    - eapply tat_ext; [|done]. intros x Hx. apply Hext. destruct d; simpl; rewrite ?fmap_app; set_solver.
    - apply IH; [|done]. intros x Hx. apply Hext. destruct d; simpl; rewrite ?fmap_app; set_solver.
  Qed.

  (** every node of the tree is a cell *)
  Lemma tat_some h p t a : tat h p t -> a ∈ addrs t -> is_Some (h !! a).
  Proof.
    revert p. induction t as [|c b v l IHl r IHr]; intros p; simpl; [set_solver|].
    rewrite fmap_app; simpl. intros (Ha & Hl & Hr) Hin.
    apply elem_of_app in Hin as [Hin|Hin]; [eauto|]. apply elem_of_cons in Hin as [->|Hin]; eauto.
  Qed.

  (** ** The state of a tree object in a heap *)

  Record tin lm rm n h hf t : Prop := Tin {
    tin_hdr : h !! hdr = Some (hcell (root t) lm rm n);
    tin_tree : tat h hdr t;
    tin_nodup : NoDup (hdr :: addrs t);
    tin_out : forall a, a ∉ hdr :: addrs t -> h !! a = hf !! a;
    tin_none : forall a, a ∈ hdr :: addrs t -> hf !! a = None
  }.

  Lemma tin_node lm rm n h hf k c a v l r :
    tin lm rm n h hf (plug k (Node c a v l r)) -> h !! a = Some (ncell c (cpar hdr k) (root l) (root r) v).
  Proof. intros [_ Ht _ _ _]. apply tat_plug in Ht as [_ Ht]. by destruct Ht. Qed.
  Lemma tin_nodeD lm rm n h hf k d c a v l r :
    tin lm rm n h hf (plug k (nodeD d c a v l r)) -> h !! a = Some (ncellD d c (cpar hdr k) (root l) (root r) v).
  Proof. destruct d; apply tin_node. Qed.

  (** what NoDup says about a node in its context *)
  Lemma tin_tags lm rm n h hf k t :
    tin lm rm n h hf (plug k t) ->
    exists f : addr -> nat, f hdr = 0 /\ (forall a, a ∈ (cpre k).*1 ++ (cpost k).*1 -> f a = 1) /\
      (forall a, a ∈ addrs t -> f a = 2).
  Proof.
    intros [_ _ Hn _ _]. rewrite elems_plug, !fmap_app in Hn.
    assert (NoDup (concat [[hdr]; (cpre k).*1 ++ (cpost k).*1; addrs t])) as Hn'.
    { simpl. revert Hn. apply nodup_perm. perm_solve. }
    destruct (nodup_tags 0 _ Hn') as (f & H0 & H1 & H2 & _). exists f. split_and!; [|done..].
    apply H0. set_solver.
  Qed.

  Lemma fuel_bound lm rm n h hf t : tin lm rm n h hf t -> length (elems t) < size h.
  Proof.
    intros Ht.
    assert (list_to_set (hdr :: addrs t) ⊆ dom h) as Hsub.
    { intros a Ha. apply elem_of_list_to_set in Ha. apply elem_of_dom.
      apply elem_of_cons in Ha as [->|Ha]; [exists (hcell (root t) lm rm n); apply (tin_hdr _ _ _ _ _ _ Ht)|].
      eapply tat_some; [apply (tin_tree _ _ _ _ _ _ Ht)|done]. }
    apply subseteq_size in Hsub. rewrite size_dom in Hsub.
    rewrite size_list_to_set in Hsub by apply (tin_nodup _ _ _ _ _ _ Ht).
    simpl in Hsub. rewrite fmap_length in Hsub. lia.
  Qed.
  Lemma depth_le k t : depth k <= length (elems (plug k t)).
  Proof.
    revert t. induction k as [|d c a v s k IH]; intros t; simpl; [lia|].
    rewrite elems_plug, !app_length. assert (forall k, depth k <= length (cpre k) + length (cpost k)) as Hd.
    { clear. intros k. induction k as [|[] c a v s k IH]; simpl; rewrite ?app_length; simpl; lia. }
    specialize (Hd k). destruct d; simpl; rewrite app_length; simpl; lia.
  Qed.

  (** ** Running field accesses *)

  Lemma runs_deref (a : addr) w (Q : addr -> W -> Prop) : Q a w -> runs (deref (Some a)) w Q.
  Proof. apply runs_ret. Qed.
  Lemma runs_get_field {A} (f : tcell V -> option A) a c x w (Q : A -> W -> Prop) :
    w_heap w !! a = Some c -> f c = Some x -> Q x w -> runs (get_field f a) w Q.
  Proof.
    intros Ha Hf HQ. unfold get_field. rbind. eapply runs_load; [done|]. rewrite Hf. by apply runs_ret.
  Qed.
  Lemma runs_get_child d a c p l r v w (Q : _ -> W -> Prop) :
    w_heap w !! a = Some (ncellD d c p l r v) -> Q l w -> runs (get_child d a) w Q.
  Proof. intros Ha HQ. destruct d; (eapply runs_get_field; [exact Ha|done|done]). Qed.
  Lemma runs_get_child_flip d a c p l r v w (Q : _ -> W -> Prop) :
    w_heap w !! a = Some (ncellD d c p l r v) -> Q r w -> runs (get_child (flip d) a) w Q.
  Proof. intros Ha HQ. destruct d; (eapply runs_get_field; [exact Ha|done|done]). Qed.
  Lemma runs_get_parent d a c p l r v w (Q : _ -> W -> Prop) :
    w_heap w !! a = Some (ncellD d c p l r v) -> Q (Some p) w -> runs (get_parent a) w Q.
  Proof. intros Ha HQ. destruct d; (eapply runs_get_field; [exact Ha|done|done]). Qed.
  Lemma runs_parent_of d a c p l r v w (Q : _ -> W -> Prop) :
    w_heap w !! a = Some (ncellD d c p l r v) -> Q p w -> runs (parent_of a) w Q.
  Proof. intros Ha HQ. unfold parent_of. rbind. eapply runs_get_parent; [done|]. by apply runs_deref. Qed.
  Lemma runs_get_color d a c p l r v w (Q : _ -> W -> Prop) :
    w_heap w !! a = Some (ncellD d c p l r v) -> Q c w -> runs (get_color a) w Q.
  Proof. intros Ha HQ. destruct d; (eapply runs_get_field; [exact Ha|done|done]). Qed.
  Lemma runs_set_child d a c p l l' r v w (Q : _ -> W -> Prop) :
    w_heap w !! a = Some (ncellD d c p l r v) ->
    Q tt (set_heap (<[a := ncellD d c p l' r v]> (w_heap w)) w) -> runs (set_child d a l') w Q.
  Proof.
    intros Ha HQ. destruct d; (unfold set_child, set_left, set_right; rbind; eapply runs_load; [done|]; eapply runs_store; [done|done]).
  Qed.
  Lemma runs_set_child_flip d a c p l r r' v w (Q : _ -> W -> Prop) :
    w_heap w !! a = Some (ncellD d c p l r v) ->
    Q tt (set_heap (<[a := ncellD d c p l r' v]> (w_heap w)) w) -> runs (set_child (flip d) a r') w Q.
  Proof.
    intros Ha HQ. destruct d; (unfold set_child, set_left, set_right; rbind; eapply runs_load; [done|]; eapply runs_store; [done|done]).
  Qed.
  Lemma runs_set_parent d a c p p' l r v w (Q : _ -> W -> Prop) :
    w_heap w !! a = Some (ncellD d c p l r v) ->
    Q tt (set_heap (<[a := ncellD d c p' l r v]> (w_heap w)) w) -> runs (set_parent a (Some p')) w Q.
  Proof.
    intros Ha HQ. destruct d; (unfold set_parent; rbind; eapply runs_load; [done|]; eapply runs_store; [done|done]).
  Qed.
  Lemma runs_set_color d a c c' p l r v w (Q : _ -> W -> Prop) :
    w_heap w !! a = Some (ncellD d c p l r v) ->
    Q tt (set_heap (<[a := ncellD d c' p l r v]> (w_heap w)) w) -> runs (set_color a c') w Q.
  Proof.
    intros Ha HQ. destruct d; (unfold set_color; rbind; eapply runs_load; [done|]; eapply runs_store; [done|done]).
  Qed.
  Lemma runs_root a o lm rm n w (Q : _ -> W -> Prop) :
    w_heap w !! a = Some (hcell o lm rm n) -> Q o w -> runs (get_parent a) w Q.
  Proof. intros Ha HQ. eapply runs_get_field; [exact Ha|done|done]. Qed.
  Lemma runs_set_root a o o' lm rm n w (Q : _ -> W -> Prop) :
    w_heap w !! a = Some (hcell o lm rm n) ->
    Q tt (set_heap (<[a := hcell o' lm rm n]> (w_heap w)) w) -> runs (set_parent a o') w Q.
  Proof.
    intros Ha HQ. unfold set_parent. rbind. eapply runs_load; [done|]. eapply runs_store; [done|done].
  Qed.

  (** ** Replacing what hangs in a context *)

  (** [if (x == root) root = y; else if (x == x->m_parent->d) x->m_parent->d = y; else ...] *)
  Definition replace_child (d : dir) (x : addr) (y : option addr) : M (tcell V) unit :=
    let! root := get_parent hdr in
    if decide (root = Some x) then set_parent hdr y else
    let! p := parent_of x in
    let! l := get_child d p in
    if decide (l = Some x) then set_child d p y else set_child (flip d) p y.

  (** the cell above the hole, with another hole *)
  Definition upd_hole lm rm n k (o : option addr) : tcell V :=
    match k with
    | Top => hcell o lm rm n
    | Frame d c a v s k => ncellD d c (cpar hdr k) o (root s) v
    end.
  Definition ctx_at lm rm n h k o : Prop :=
    h !! hdr = Some (hcell (croot k o) lm rm n) /\ fr_at h hdr k o.

  Lemma ctx_at_ext lm rm n h h' k o :
    h' !! hdr = h !! hdr -> (forall a, a ∈ (cpre k).*1 ++ (cpost k).*1 -> h' !! a = h !! a) ->
    ctx_at lm rm n h k o -> ctx_at lm rm n h' k o.
  Proof. intros Hh Hk [H1 H2]. split; [by rewrite Hh|]. by eapply fr_ext. Qed.

  Lemma ctx_at_upd lm rm n h k o o' :
    NoDup (hdr :: (cpre k).*1 ++ (cpost k).*1) ->
    ctx_at lm rm n h k o -> ctx_at lm rm n (<[cpar hdr k := upd_hole lm rm n k o']> h) k o'.
  Proof.
    intros Hn [Hh Hk]. destruct k as [|d c a v s k]; simpl in *.
    - split; [|done]. simpl. by rewrite lookup_insert.
    - assert (exists f : addr -> nat, f hdr = 0 /\ f a = 1 /\ (forall x, x ∈ addrs s -> f x = 2) /\
                (forall x, x ∈ (cpre k).*1 ++ (cpost k).*1 -> f x = 3)) as (f & F0 & F1 & F2 & F3).
      { assert (NoDup (concat [[hdr]; [a]; addrs s; (cpre k).*1 ++ (cpost k).*1])) as Hn'.
        { revert Hn. apply nodup_perm. simpl. destruct d; simpl; rewrite ?fmap_app; simpl; perm_solve. }
        destruct (nodup_tags 0 _ Hn') as (f & G0 & G1 & G2 & G3 & _).
        exists f. split_and!; [apply G0; set_solver|apply G1; set_solver|done..]. }
      destruct Hk as (Ha & Hs & Hk). split.
      + rewrite lookup_insert_ne by tag_solve. exact Hh.
      + simpl. split_and!.
        * by rewrite lookup_insert.
        * eapply tat_ext; [|done]. intros x Hx. rewrite lookup_insert_ne by tag_solve. done.
        * eapply fr_ext; [|done]. intros x Hx. rewrite lookup_insert_ne by tag_solve. done.
  Qed.
  Lemma ctx_at_cell lm rm n h k o : ctx_at lm rm n h k o -> h !! cpar hdr k = Some (upd_hole lm rm n k o).
  Proof. intros [Hh Hk]. destruct k as [|d c a v s k]; simpl in *; [done|]. by destruct Hk. Qed.

  Lemma runs_replace lm rm n d0 k x y w h cx (Q : unit -> W -> Prop) :
    w_heap w = h -> ctx_at lm rm n h k (Some x) ->
    NoDup (hdr :: x :: (cpre k).*1 ++ (cpost k).*1) ->
    h !! x = Some cx -> tn_parent cx = Some (Some (cpar hdr k)) ->
    Q tt (set_heap (<[cpar hdr k := upd_hole lm rm n k y]> h) w) ->
    runs (replace_child d0 x y) w Q.
  Proof.
    intros Hw Hc Hn Hx Hp HQ. unfold replace_child.
    pose proof Hc as [Hh Hk].
    rbind. eapply runs_root; [by rewrite Hw|].
    destruct k as [|d c a v s k].
    - simpl. rewrite decide_True by done. eapply runs_set_root; [by rewrite Hw|]. rewrite Hw. done.
    - destruct (croot_in d c a v s k (Some x)) as (b & Hb & Hin).
      rewrite decide_False; cycle 1.
      { rewrite Hb. intros [= ->]. rewrite !NoDup_cons in Hn. tauto. }
      rbind. unfold parent_of. rbind. eapply runs_get_field; [by rewrite Hw|done|].
      apply runs_deref. simpl in Hk |- *. destruct Hk as (Ha & Hs & Hk).
      assert (root s <> Some x) as Hsx.
      { destruct s; [done|]. simpl. intros [= ->]. rewrite !NoDup_cons in Hn.
        destruct Hn as (_ & Hn & _). apply Hn. destruct d; simpl; rewrite ?fmap_app; simpl; rewrite ?fmap_app; set_solver. }
      rbind. assert (d = d0 \/ d0 = flip d) as [->| ->] by (destruct d, d0; auto).
      + eapply runs_get_child; [by rewrite Hw|]. rewrite decide_True by done.
        eapply runs_set_child; [by rewrite Hw|]. rewrite Hw. exact HQ.
      + eapply runs_get_child_flip; [by rewrite Hw|]. rewrite decide_False by done.
        replace (flip (flip d)) with d by (by destruct d).
        eapply runs_set_child; [by rewrite Hw|]. rewrite Hw. exact HQ.
  Qed.

  (** ** Giving a subtree another parent *)

  Definition repar (p' : addr) t h : H :=
    match t with
    | Leaf => h
    | Node c a v l r => <[a := ncell c p' (root l) (root r) v]> h
    end.
  Lemma repar_ne p' t h a : a ∉ addrs t -> repar p' t h !! a = h !! a.
  Proof.
    destruct t; simpl; [done|]. rewrite fmap_app; simpl. intros Ha. rewrite lookup_insert_ne; [done|]. set_solver.
  Qed.
  Lemma repar_tat p p' t h : NoDup (addrs t) -> tat h p t -> tat (repar p' t h) p' t.
  Proof.
    destruct t as [|c a v l r]; simpl; [done|]. rewrite fmap_app; simpl.
    rewrite NoDup_app, NoDup_cons. intros (_ & Hl & Hr & _) (Ha & Htl & Htr). split_and!.
    - by rewrite lookup_insert.
    - eapply tat_ext; [|done]. intros x Hx. rewrite lookup_insert_ne; [done|]. intros ->. apply (Hl x); set_solver.
    - eapply tat_ext; [|done]. intros x Hx. rewrite lookup_insert_ne; [done|]. intros ->. done.
  Qed.
  Lemma runs_repar p p' t w h (Q : unit -> W -> Prop) :
    w_heap w = h -> tat h p t -> Q tt (set_heap (repar p' t h) w) ->
    runs (match root t with Some b => set_parent b (Some p') | None => ret tt end) w Q.
  Proof.
    intros Hw Ht HQ. destruct t as [|c a v l r]; simpl in *.
    - apply runs_ret. by replace w with (set_heap h w) by (rewrite <-Hw; by destruct w).
    - destruct Ht as [Ha _]. eapply (runs_set_parent DL); [by rewrite Hw|]. by rewrite Hw.
  Qed.

  (** ** Rotation *)

  Definition rotate (d : dir) (x : addr) : M (tcell V) unit :=
    let! y := get_child (flip d) x in
    let! y := deref y in
    let! yl := get_child d y in
    do! set_child (flip d) x yl in
    do! (match yl with Some b => set_parent b (Some x) | None => ret tt end) in
    let! p := get_parent x in
    do! set_parent y p in
    do! replace_child d x (Some y) in
    do! set_child d y (Some x) in
    set_parent x (Some y).
  Lemma rotate_left_eq x : rotate_left hdr x = rotate DL x.
  Proof. done. Qed.
  Lemma rotate_right_eq x : rotate_right hdr x = rotate DR x.
  Proof. done. Qed.

  Lemma tin_ctx lm rm n h hf k t : tin lm rm n h hf (plug k t) -> ctx_at lm rm n h k (root t).
  Proof.
    intros [Hh Ht _ _ _]. split; [by rewrite <-root_plug|]. by apply tat_plug in Ht as [? _].
  Qed.
  Lemma tin_sub lm rm n h hf k t : tin lm rm n h hf (plug k t) -> tat h (cpar hdr k) t.
  Proof. intros [Hh Ht _ _ _]. by apply tat_plug in Ht as [_ ?]. Qed.
  Lemma tin_nodup_ctx lm rm n h hf k t :
    tin lm rm n h hf (plug k t) -> NoDup (hdr :: (cpre k).*1 ++ (cpost k).*1).
  Proof.
    intros [_ _ Hn _ _]. rewrite elems_plug, !fmap_app in Hn.
    eapply (nodup_perm _ (addrs t ++ (hdr :: (cpre k).*1 ++ (cpost k).*1))) in Hn; [|perm_solve].
    by apply NoDup_app in Hn as (_ & _ & ?).
  Qed.
  Lemma cpar_fact (f : addr -> nat) i k :
    (forall a, a ∈ hdr :: (cpre k).*1 ++ (cpost k).*1 -> f a = i) -> f (cpar hdr k) = i.
  Proof.
    intros Hf. apply Hf. destruct k as [|d c a v s k]; [simpl; set_solver|].
    apply elem_of_cons. right. apply (cpar_in hdr).
  Qed.

  (** a tree rearranged in its place *)
  Lemma tin_put lm rm n h h' hf k t t' :
    tin lm rm n h hf (plug k t) -> ctx_at lm rm n h' k (root t') -> tat h' (cpar hdr k) t' ->
    elems t' = elems t -> (forall a, a ∉ hdr :: addrs (plug k t) -> h' !! a = h !! a) ->
    tin lm rm n h' hf (plug k t').
  Proof.
    intros [Hh Ht Hn Ho Hd] [Hc1 Hc2] Ht' He Hout.
    assert (elems (plug k t') = elems (plug k t)) as Hee by (by rewrite !elems_plug, He).
    split; rewrite ?Hee; try done.
    - by rewrite root_plug.
    - by apply tat_plug.
    - intros a Ha. rewrite Hout by done. by apply Ho.
  Qed.

  Lemma rotate_spec lm rm n d k cx x vx cy y vy A B D w hf (Q : unit -> W -> Prop) :
    tin lm rm n (w_heap w) hf (plug k (nodeD d cx x vx A (nodeD d cy y vy B D))) ->
    (forall h', tin lm rm n h' hf (plug k (nodeD d cy y vy (nodeD d cx x vx A B) D)) -> Q tt (set_heap h' w)) ->
    runs (rotate d x) w Q.
  Proof.
    intros Ht HQ.
    pose proof (tin_ctx _ _ _ _ _ _ _ Ht) as Hctx. rewrite root_nodeD in Hctx.
    pose proof (tin_sub _ _ _ _ _ _ _ Ht) as Hsub.
    pose proof (tin_nodup_ctx _ _ _ _ _ _ _ Ht) as Hnc.
    assert (exists f : addr -> nat,
      (forall a, a ∈ hdr :: (cpre k).*1 ++ (cpost k).*1 -> f a = 0) /\ f x = 1 /\ f y = 2 /\
      (forall a, a ∈ addrs A -> f a = 3) /\ (forall a, a ∈ addrs B -> f a = 4) /\
      (forall a, a ∈ addrs D -> f a = 5) /\
      (forall a, a ∉ hdr :: addrs (plug k (nodeD d cx x vx A (nodeD d cy y vy B D))) ->
        a ∉ hdr :: (cpre k).*1 ++ (cpost k).*1 /\ a <> x /\ a <> y /\ a ∉ addrs B) /\ NoDup (addrs B))
      as (f & F0 & F1 & F2 & F3 & F4 & F5 & Fout & HnB).
    { pose proof (tin_nodup _ _ _ _ _ _ Ht) as Hn. rewrite elems_plug, !fmap_app in Hn.
      assert (hdr :: addrs (plug k (nodeD d cx x vx A (nodeD d cy y vy B D))) ≡ₚ
        concat [hdr :: (cpre k).*1 ++ (cpost k).*1; [x]; [y]; addrs A; addrs B; addrs D]) as Hp.
      { rewrite elems_plug, !fmap_app. csimpl. destruct d; csimpl; repeat (rewrite fmap_app; csimpl); perm_solve. }
      pose proof (tin_nodup _ _ _ _ _ _ Ht) as Hn'. eapply nodup_perm in Hn'; [|exact Hp].
      destruct (nodup_tags 0 _ Hn') as (f & G0 & G1 & G2 & G3 & G4 & G5 & _).
      exists f. split_and!; [done|apply G1; set_solver|apply G2; set_solver|done..| |].
      - intros a. rewrite Hp. simpl. set_solver.
      - simpl in Hn'. rewrite app_comm_cons in Hn'. apply NoDup_app in Hn' as (_ & _ & Hn').
        apply NoDup_cons in Hn' as [_ Hn']. apply NoDup_cons in Hn' as [_ Hn'].
        apply NoDup_app in Hn' as (_ & _ & Hn'). by apply NoDup_app in Hn' as (Hn' & _). }
    pose proof (cpar_fact f 0 k F0) as Fp.
    apply tat_nodeD in Hsub as (Hx & HA & Hsub). rewrite root_nodeD in Hx.
    apply tat_nodeD in Hsub as (Hy & HB & HD).
    unfold rotate.
    rbind. eapply runs_get_child_flip; [done|]. rbind. apply runs_deref.
    rbind. eapply runs_get_child; [done|].
    rbind. eapply runs_set_child_flip; [done|].
    set (h2 := <[x := _]> (w_heap w)).
    rbind. eapply (runs_repar y x B); [simpl; done| |].
    { eapply tat_ext; [|exact HB]. intros a Ha. unfold h2. rewrite lookup_insert_ne by tag_solve. done. }
    set (h3 := repar x B h2).
    rbind. eapply runs_get_parent.
    { simpl. unfold h3. rewrite repar_ne by tag_solve. unfold h2. by rewrite lookup_insert. }
    rbind. eapply runs_set_parent.
    { simpl. unfold h3. rewrite repar_ne by tag_solve. unfold h2. rewrite lookup_insert_ne by tag_solve. exact Hy. }
    simpl. set (h4 := <[y := _]> h3).
    assert (ctx_at lm rm n h4 k (Some x)) as Hctx4.
    { eapply ctx_at_ext; [| |exact Hctx].
      - unfold h4, h3, h2. assert (f hdr = 0) by (apply F0; set_solver).
        rewrite lookup_insert_ne, repar_ne, lookup_insert_ne by tag_solve. done.
      - intros a Ha. assert (f a = 0) by (apply F0; set_solver).
        unfold h4, h3, h2. rewrite lookup_insert_ne, repar_ne, lookup_insert_ne by tag_solve. done. }
    rbind. eapply (runs_replace lm rm n d k x (Some y)); [simpl; done|exact Hctx4| | | |].
    { rewrite !NoDup_cons in *. split_and!; [|set_unfold; intros Hin|tauto].
      - apply not_elem_of_cons. split; [|tauto]. intros <-. specialize (F0 hdr). rewrite F0 in F1; [done|set_solver].
      - rewrite (F0 x) in F1; [done|set_solver]. }
    { unfold h4, h3, h2. rewrite lookup_insert_ne, repar_ne by tag_solve. by rewrite lookup_insert. }
    { by destruct d. }
    simpl. set (h5 := <[cpar hdr k := _]> h4).
    rbind. eapply runs_set_child.
    { simpl. unfold h5. rewrite lookup_insert_ne by tag_solve. unfold h4. by rewrite lookup_insert. }
    simpl. set (h6 := <[y := _]> h5).
    eapply runs_set_parent.
    { simpl. unfold h6, h5, h4, h3, h2. rewrite !lookup_insert_ne, repar_ne by tag_solve. by rewrite lookup_insert. }
    simpl. set (h7 := <[x := _]> h6). unfold set_heap; simpl. apply HQ.
    eapply tin_put; [exact Ht| | | |].
    - rewrite root_nodeD. pose proof (ctx_at_upd lm rm n h4 k (Some x) (Some y) Hnc Hctx4) as Hctx5. fold h5 in Hctx5.
      eapply ctx_at_ext; [| |exact Hctx5].
      + unfold h7, h6. assert (f hdr = 0) by (apply F0; set_solver). rewrite !lookup_insert_ne by tag_solve. done.
      + intros a Ha. assert (f a = 0) by (apply F0; set_solver). unfold h7, h6. rewrite !lookup_insert_ne by tag_solve. done.
    - apply tat_nodeD. rewrite root_nodeD. split_and!.
      + unfold h7, h6. rewrite lookup_insert_ne by tag_solve. by rewrite lookup_insert.
      + apply tat_nodeD. split_and!.
        * unfold h7. by rewrite lookup_insert.
        * eapply tat_ext; [|exact HA]. intros a Ha. unfold h7, h6, h5, h4, h3, h2.
          rewrite !lookup_insert_ne, repar_ne, lookup_insert_ne by tag_solve. done.
        * assert (tat h3 x B) as HB3.
          { eapply repar_tat; [done|]. eapply tat_ext; [|exact HB]. intros a Ha. unfold h2.
            rewrite lookup_insert_ne by tag_solve. done. }
          eapply tat_ext; [|exact HB3]. intros a Ha. unfold h7, h6, h5, h4.
          rewrite !lookup_insert_ne by tag_solve. done.
      + eapply tat_ext; [|exact HD]. intros a Ha. unfold h7, h6, h5, h4, h3, h2.
        rewrite !lookup_insert_ne, repar_ne, lookup_insert_ne by tag_solve. done.
    - destruct d; simpl; by rewrite <-?(assoc_L (++)).
    - intros a Ha. apply Fout in Ha as (H0 & Hax & Hay & HaB). unfold h7, h6, h5, h4, h3, h2.
      assert (a <> cpar hdr k).
      { intros ->. apply H0. destruct k as [|d' c' a' v' s' k]; [simpl; set_solver|].
        apply elem_of_cons. right. apply (cpar_in hdr). }
      rewrite !lookup_insert_ne, repar_ne, lookup_insert_ne by done. done.
  Qed.

  (** ** Recoloring *)

  Lemma recolor_spec lm rm n k c c' a v l r w hf (Q : unit -> W -> Prop) :
    tin lm rm n (w_heap w) hf (plug k (Node c a v l r)) ->
    (forall h', tin lm rm n h' hf (plug k (Node c' a v l r)) -> Q tt (set_heap h' w)) ->
    runs (set_color a c') w Q.
  Proof.
    intros Ht HQ. eapply (runs_set_color DL); [by eapply (tin_node _ _ _ _ _ k)|]. apply HQ.
    pose proof (tin_sub _ _ _ _ _ _ _ Ht) as (Ha & Hl & Hr).
    pose proof (tin_nodup _ _ _ _ _ _ Ht) as Hn.
    assert (hdr :: addrs (plug k (Node c a v l r)) ≡ₚ
        concat [hdr :: (cpre k).*1 ++ (cpost k).*1; [a]; addrs l; addrs r]) as Hp.
    { rewrite elems_plug, !fmap_app. csimpl. rewrite fmap_app. csimpl. perm_solve. }
    pose proof Hn as Hn'. eapply nodup_perm in Hn'; [|exact Hp].
    destruct (nodup_tags 0 _ Hn') as (f & F0 & F1 & F2 & F3 & _). tag_facts.
    eapply tin_put; [exact Ht| | |done|].
    - eapply ctx_at_ext; [| |exact (tin_ctx _ _ _ _ _ _ _ Ht)].
      + assert (f hdr = 0) by (apply F0; set_solver). rewrite lookup_insert_ne by tag_solve. done.
      + intros b Hb. assert (f b = 0) by (apply F0; set_solver). rewrite lookup_insert_ne by tag_solve. done.
    - simpl. split_and!; [by rewrite lookup_insert| |].
      + eapply tat_ext; [|exact Hl]. intros b Hb. rewrite lookup_insert_ne by tag_solve. done.
      + eapply tat_ext; [|exact Hr]. intros b Hb. rewrite lookup_insert_ne by tag_solve. done.
    - intros b. rewrite Hp. intros Hb. rewrite lookup_insert_ne; [done|]. simpl in Hb. set_solver.
  Qed.
  Lemma recolorD_spec lm rm n k d c c' a v l r w hf (Q : unit -> W -> Prop) :
    tin lm rm n (w_heap w) hf (plug k (nodeD d c a v l r)) ->
    (forall h', tin lm rm n h' hf (plug k (nodeD d c' a v l r)) -> Q tt (set_heap h' w)) ->
    runs (set_color a c') w Q.
  Proof. destruct d; apply recolor_spec. Qed.

End tree.
