(** * Comparisons made by the tree *)
From Verif Require Export Count RbExtra RbAny.

Ltac sstep := apply settled_step; intros ? ? ?.
Ltac sruns := apply settled_runs.

Section cnt.
  Context {V : Type} (cf : cfg V).
  Notation K := (V -> V -> bool).
  Notation H := (gmap addr (tcell V)).
  Notation W := (world (tcell V)).
  Notation E := (addr * V)%type.
  Implicit Types comp : V -> V -> bool.
  Implicit Types h hf : H.
  Implicit Types w : W.
  Implicit Types t s : tree V.
  Implicit Types n : nat.
  Implicit Types k : @ctx V.
  Implicit Types o : tset.
  Implicit Types xs : list E.
  Notation sin := (sin (wk never)).

  (** ** Descents *)

  Lemma lower_loop_count comp al hdr lm rm n hf fuel k t y kt kv w :
    tin al hdr lm rm n (w_heap w) hf (plug k t) -> rd (w_heap w) kt kv ->
    settled (fun c => lower_loop c fuel (root t) y kt) comp w (height t).
  Proof.
    intros Ht Hk. revert k t y Ht. induction fuel as [|fuel IH]; intros k t y Ht; [apply settled_const|].
    destruct t as [|c a v l r]; [apply settled_const|]. simpl root. simpl lower_loop. simpl height.
    pose proof (tin_node al hdr _ _ _ _ _ _ _ _ _ _ _ Ht) as Hx.
    sruns. eapply runs_tread_node; [exact Ht|]. sruns. apply (rd_reads _ _ kv); [done|].
    apply settled_ifn; intros _.
    - sruns. eapply (runs_get_child al DL); [exact Hx|]. eapply settled_mono; [eapply (IH (Frame DL c a v r k)); exact Ht|lia].
    - sruns. eapply (runs_get_child al DR); [exact Hx|]. eapply settled_mono; [eapply (IH (Frame DR c a v l k)); exact Ht|lia].
  Qed.
  Lemma upper_loop_count comp al hdr lm rm n hf fuel k t y kt kv w :
    tin al hdr lm rm n (w_heap w) hf (plug k t) -> rd (w_heap w) kt kv ->
    settled (fun c => upper_loop c fuel (root t) y kt) comp w (height t).
  Proof.
    intros Ht Hk. revert k t y Ht. induction fuel as [|fuel IH]; intros k t y Ht; [apply settled_const|].
    destruct t as [|c a v l r]; [apply settled_const|]. simpl root. simpl upper_loop. simpl height.
    pose proof (tin_node al hdr _ _ _ _ _ _ _ _ _ _ _ Ht) as Hx.
    sruns. eapply runs_tread_node; [exact Ht|]. sruns. apply (rd_reads _ _ kv); [done|].
    apply settled_if; intros _.
    - sruns. eapply (runs_get_child al DL); [exact Hx|]. eapply settled_mono; [eapply (IH (Frame DL c a v r k)); exact Ht|lia].
    - sruns. eapply (runs_get_child al DR); [exact Hx|]. eapply settled_mono; [eapply (IH (Frame DR c a v l k)); exact Ht|lia].
  Qed.
  Lemma unique_pos_count comp al hdr lm rm n hf fuel k t y b kt kv w :
    tin al hdr lm rm n (w_heap w) hf (plug k t) -> rd (w_heap w) kt kv ->
    settled (fun c => unique_pos_loop c fuel (root t) y b kt) comp w (height t).
  Proof.
    intros Ht Hk. revert k t y b Ht. induction fuel as [|fuel IH]; intros k t y b Ht; [apply settled_const|].
    destruct t as [|c a v l r]; [apply settled_const|]. simpl root. simpl unique_pos_loop. simpl height.
    pose proof (tin_node al hdr _ _ _ _ _ _ _ _ _ _ _ Ht) as Hx.
    sruns. apply (rd_reads _ _ kv); [done|]. sruns. eapply runs_tread_node; [exact Ht|].
    apply (settled_ask kv v (fun c b => let! x' := (if b then get_left a else get_right a) in unique_pos_loop c fuel x' a b kt)).
    destruct (comp kv v).
    - sruns. eapply (runs_get_child al DL); [exact Hx|]. eapply settled_mono; [eapply (IH (Frame DL c a v r k)); exact Ht|lia].
    - sruns. eapply (runs_get_child al DR); [exact Hx|]. eapply settled_mono; [eapply (IH (Frame DR c a v l k)); exact Ht|lia].
  Qed.
  Lemma equal_pos_count comp al hdr lm rm n hf fuel k t y kt kv w :
    tin al hdr lm rm n (w_heap w) hf (plug k t) -> rd (w_heap w) kt kv ->
    settled (fun c => equal_pos_loop c fuel (root t) y kt) comp w (height t).
  Proof.
    intros Ht Hk. revert k t y Ht. induction fuel as [|fuel IH]; intros k t y Ht; [apply settled_const|].
    destruct t as [|c a v l r]; [apply settled_const|]. simpl root. simpl equal_pos_loop. simpl height.
    pose proof (tin_node al hdr _ _ _ _ _ _ _ _ _ _ _ Ht) as Hx.
    sruns. apply (rd_reads _ _ kv); [done|]. sruns. eapply runs_tread_node; [exact Ht|].
    apply (settled_ask kv v (fun c b => let! x' := (if b then get_left a else get_right a) in equal_pos_loop c fuel x' a kt)).
    destruct (comp kv v).
    - sruns. eapply (runs_get_child al DL); [exact Hx|]. eapply settled_mono; [eapply (IH (Frame DL c a v r k)); exact Ht|lia].
    - sruns. eapply (runs_get_child al DR); [exact Hx|]. eapply settled_mono; [eapply (IH (Frame DR c a v l k)); exact Ht|lia].
  Qed.
  Lemma equal_lower_count comp al hdr lm rm n hf fuel k t y kt kv w :
    tin al hdr lm rm n (w_heap w) hf (plug k t) -> rd (w_heap w) kt kv ->
    settled (fun c => equal_lower_loop c fuel (root t) y kt) comp w (height t).
  Proof.
    intros Ht Hk. revert k t y Ht. induction fuel as [|fuel IH]; intros k t y Ht; [apply settled_const|].
    destruct t as [|c a v l r]; [apply settled_const|]. simpl root. simpl equal_lower_loop. simpl height.
    pose proof (tin_node al hdr _ _ _ _ _ _ _ _ _ _ _ Ht) as Hx.
    sruns. eapply runs_tread_node; [exact Ht|]. sruns. apply (rd_reads _ _ kv); [done|].
    apply (settled_ask v kv (fun c b => let! x' := (if negb b then get_left a else get_right a) in equal_lower_loop c fuel x' a kt)).
    destruct (negb (comp v kv)).
    - sruns. eapply (runs_get_child al DL); [exact Hx|]. eapply settled_mono; [eapply (IH (Frame DL c a v r k)); exact Ht|lia].
    - sruns. eapply (runs_get_child al DR); [exact Hx|]. eapply settled_mono; [eapply (IH (Frame DR c a v l k)); exact Ht|lia].
  Qed.
  Lemma equal_range_loop_count comp al hdr lm rm n hf fuel k t y kt kv w :
    tin al hdr lm rm n (w_heap w) hf (plug k t) -> rd (w_heap w) kt kv ->
    settled (fun c => equal_range_loop c fuel (root t) y kt) comp w (2 * height t).
  Proof.
    intros Ht Hk. revert k t y Ht. induction fuel as [|fuel IH]; intros k t y Ht; [apply settled_const|].
    destruct t as [|c a v l r]; [apply settled_const|]. simpl root. simpl equal_range_loop. simpl height.
    pose proof (tin_node al hdr _ _ _ _ _ _ _ _ _ _ _ Ht) as Hx.
    sruns. eapply runs_tread_node; [exact Ht|]. sruns. apply (rd_reads _ _ kv); [done|].
    replace (2 * S (Nat.max (height l) (height r))) with (S (S (2 * Nat.max (height l) (height r)))) by lia.
    apply settled_if; intros _; [|apply settled_if; intros _].
    - sruns. eapply (runs_get_child al DR); [exact Hx|]. eapply settled_mono; [eapply (IH (Frame DR c a v l k)); exact Ht|lia].
    - sruns. eapply (runs_get_child al DL); [exact Hx|]. eapply settled_mono; [eapply (IH (Frame DL c a v r k)); exact Ht|lia].
    - sruns. eapply (runs_get_child al DL); [exact Hx|]. sruns. eapply (runs_get_child al DR); [exact Hx|].
      unfold m_lower_bound, m_upper_bound.
      eapply (settled_bind (fun c => let! fuel := tree_fuel in lower_loop c fuel (root l) a kt)
        (fun c lo => let! hi := (let! fuel := tree_fuel in upper_loop c fuel (root r) y kt) in ret (lo, hi)) _ _ (height l) (height r)); [| |lia].
      + sruns. apply runs_tree_fuel. by eapply (lower_loop_count comp al hdr _ _ _ _ _ (Frame DL c a v r k)).
      + intros lo w' Hlo.
        assert (w' = w) as ->.
        { assert (runs (let! fuel := tree_fuel in lower_loop comp fuel (root l) a kt) w (fun _ w' => w' = w)) as (a1 & w1 & Hr & ->).
          { rbind. apply runs_tree_fuel.
            eapply (lower_loop_any comp al hdr _ _ _ _ _ (Frame DL c a v r k)); [exact Ht|exact Hk| |done].
            pose proof (tin_linear al hdr _ _ _ _ _ _ Ht) as Hl. pose proof (plug_height k (Node c a v l r)) as Hp. simpl in Hp, Hl |- *. lia. }
          rewrite Hlo in Hr. by simplify_eq. }
        apply (settled_bind (fun c => let! fuel := tree_fuel in upper_loop c fuel (root r) y kt) (fun _ hi => ret (lo, hi)) _ _ (height r) 0); [| |lia].
        * sruns. apply runs_tree_fuel. by eapply (upper_loop_count comp al hdr _ _ _ _ _ (Frame DR c a v l k)).
        * intros. apply settled_const.
  Qed.

  (** ** Lookup *)

  Notation bnd xs := (bound (length xs)).

  Lemma lower_bound_count comp o xs t hf kt kv w :
    sin o xs (w_heap w) hf t -> rd (w_heap w) kt kv -> settled (fun c => lower_bound c o kt) comp w (bnd xs).
  Proof.
    intros Hs Hk. pose proof (sin_height _ _ _ _ _ _ Hs). unfold lower_bound, m_lower_bound.
    sruns. eapply runs_root; [by eapply sin_hdr|]. sruns. apply runs_tree_fuel. destruct Hs as (Ht & _).
    eapply settled_mono; [by eapply (lower_loop_count comp _ _ _ _ _ _ _ Top)|done].
  Qed.
  Lemma upper_bound_count comp o xs t hf kt kv w :
    sin o xs (w_heap w) hf t -> rd (w_heap w) kt kv -> settled (fun c => upper_bound c o kt) comp w (bnd xs).
  Proof.
    intros Hs Hk. pose proof (sin_height _ _ _ _ _ _ Hs). unfold upper_bound, m_upper_bound.
    sruns. eapply runs_root; [by eapply sin_hdr|]. sruns. apply runs_tree_fuel. destruct Hs as (Ht & _).
    eapply settled_mono; [by eapply (upper_loop_count comp _ _ _ _ _ _ _ Top)|done].
  Qed.
  Lemma equal_range_count comp o xs t hf kt kv w :
    sin o xs (w_heap w) hf t -> rd (w_heap w) kt kv -> settled (fun c => equal_range c o kt) comp w (2 * bnd xs).
  Proof.
    intros Hs Hk. pose proof (sin_height _ _ _ _ _ _ Hs). unfold equal_range.
    sruns. eapply runs_root; [by eapply sin_hdr|]. sruns. apply runs_tree_fuel. destruct Hs as (Ht & _).
    eapply settled_mono; [by eapply (equal_range_loop_count comp _ _ _ _ _ _ _ Top)|lia].
  Qed.
  Lemma find_count comp o xs t hf kt kv w :
    sin o xs (w_heap w) hf t -> rd (w_heap w) kt kv -> settled (fun c => t_find c o kt) comp w (bnd xs + 1).
  Proof.
    intros Hs Hk. unfold t_find.
    eapply (settled_bind (fun c => lower_bound c o kt) _ _ _ (bnd xs) 1); [by eapply lower_bound_count| |lia].
    intros j w' _. simpl. destruct (decide (j = t_end o)); [apply settled_const|].
    sstep. sstep. apply settled_if; intros _; apply settled_const.
  Qed.
  Lemma t_count_count comp o xs t hf kt kv w :
    sin o xs (w_heap w) hf t -> rd (w_heap w) kt kv -> settled (fun c => t_count c o kt) comp w (2 * bnd xs).
  Proof.
    intros Hs Hk. unfold t_count.
    eapply (settled_bind (fun c => equal_range c o kt) _ _ _ (2 * bnd xs) 0); [by eapply equal_range_count| |lia].
    intros j w' _. apply settled_const.
  Qed.
  Lemma erase_key_count comp o xs t hf kt kv w :
    sin o xs (w_heap w) hf t -> rd (w_heap w) kt kv -> settled (fun c => t_erase_key cf c o kt) comp w (2 * bnd xs).
  Proof.
    intros Hs Hk. unfold t_erase_key.
    eapply (settled_bind (fun c => equal_range c o kt) _ _ _ (2 * bnd xs) 0); [by eapply equal_range_count| |lia].
    intros j w' _. apply settled_const.
  Qed.

  (** ** Insertion *)

  Lemma unique_find_count comp o xs t hf kt kv w :
    sin o xs (w_heap w) hf t -> rd (w_heap w) kt kv -> settled (fun c => insert_unique_pos c o kt) comp w (bnd xs + 1).
  Proof.
    intros Hs Hk. pose proof (sin_height _ _ _ _ _ _ Hs) as Hh. unfold insert_unique_pos.
    sruns. eapply runs_root; [by eapply sin_hdr|]. sruns. apply runs_tree_fuel. destruct Hs as (Ht & _).
    eapply (settled_bind (fun c => unique_pos_loop c _ _ _ _ kt) _ _ _ (bnd xs) 1); [| |lia].
    { eapply settled_mono; [by eapply (unique_pos_count comp _ _ _ _ _ _ _ Top)|done]. }
    intros [y b] w' _. simpl. sstep. destruct (_ && _); [apply settled_const|].
    sstep. sstep. sstep. apply settled_if; intros _; apply settled_const.
  Qed.
  Lemma equal_find_count comp o xs t hf kt kv w :
    sin o xs (w_heap w) hf t -> rd (w_heap w) kt kv -> settled (fun c => insert_equal_pos c o kt) comp w (bnd xs).
  Proof.
    intros Hs Hk. pose proof (sin_height _ _ _ _ _ _ Hs) as Hh. unfold insert_equal_pos.
    sruns. eapply runs_root; [by eapply sin_hdr|]. sruns. apply runs_tree_fuel. destruct Hs as (Ht & _).
    eapply (settled_bind (fun c => equal_pos_loop c _ _ _ kt) _ _ _ (bnd xs) 0); [| |lia].
    { eapply settled_mono; [by eapply (equal_pos_count comp _ _ _ _ _ _ _ Top)|done]. }
    intros y w' _. apply settled_const.
  Qed.
  (** what follows the choice of the side *)
  Lemma left_count {A} comp (b : bool) (m1 m2 : M (tcell V) V) (k : bool -> M (tcell V) A) (sw : bool) w :
    settled (fun c => let! il := (if b then ret true else let! x := m1 in let! y := m2 in ret (if sw then negb (c x y) else c x y)) in k il) comp w 1.
  Proof.
    destruct b; [apply settled_const|].
    apply (settled_bind (fun c => let! x := m1 in let! y := m2 in ret (if sw then negb (c x y) else c x y)) (fun _ => k) _ _ 1 0); [| |lia].
    - sstep. sstep. destruct sw.
      + apply (settled_ask _ _ (fun _ b => ret (negb b))). apply settled_const.
      + apply (settled_ask _ _ (fun _ b => ret b)). apply settled_const.
    - intros. apply settled_const.
  Qed.
  Lemma m_insert_count comp o x p v w : settled (fun c => m_insert cf c o x p v) comp w 1.
  Proof. unfold m_insert. destruct (decide _); [apply settled_const|]. apply (left_count comp false _ _ _ false). Qed.
  Lemma m_insert_node_count comp o x p z w : settled (fun c => m_insert_node c o x p z) comp w 1.
  Proof. unfold m_insert_node. destruct (decide _); [apply settled_const|]. apply (left_count comp false _ _ _ false). Qed.
  Lemma m_insert_lower_count comp o p v w : settled (fun c => m_insert_lower cf c o p v) comp w 1.
  Proof. unfold m_insert_lower. destruct (decide _); [apply settled_const|]. apply (left_count comp false _ _ _ true). Qed.
  Lemma m_insert_lower_node_count comp o p z w : settled (fun c => m_insert_lower_node c o p z) comp w 1.
  Proof. unfold m_insert_lower_node. destruct (decide _); [apply settled_const|]. apply (left_count comp false _ _ _ true). Qed.

  Lemma insert_unique_count comp o xs t hf kt kv w :
    sin o xs (w_heap w) hf t -> rd (w_heap w) kt kv -> settled (fun c => insert_unique cf c o kt) comp w (bnd xs + 2).
  Proof.
    intros Hs Hk. unfold insert_unique.
    eapply (settled_bind (fun c => insert_unique_pos c o kt) _ _ _ (bnd xs + 1) 1); [by eapply unique_find_count| |lia].
    intros [x [p|]] w' _; simpl; [|apply settled_const].
    eapply (settled_bind (fun c => m_insert cf c o x p kt) (fun _ pos => ret (pos, true)) _ _ 1 0); [apply m_insert_count| |lia].
    intros. apply settled_const.
  Qed.
  Lemma insert_equal_count comp o xs t hf kt kv w :
    sin o xs (w_heap w) hf t -> rd (w_heap w) kt kv -> settled (fun c => insert_equal cf c o kt) comp w (bnd xs + 1).
  Proof.
    intros Hs Hk. unfold insert_equal.
    eapply (settled_bind (fun c => insert_equal_pos c o kt) _ _ _ (bnd xs) 1); [by eapply equal_find_count| |lia].
    intros [x [p|]] w' _; simpl; [|apply settled_const]. apply m_insert_count.
  Qed.
  Lemma insert_equal_lower_count comp o xs t hf kt kv w :
    sin o xs (w_heap w) hf t -> rd (w_heap w) kt kv -> settled (fun c => insert_equal_lower cf c o kt) comp w (bnd xs + 1).
  Proof.
    intros Hs Hk. pose proof (sin_height _ _ _ _ _ _ Hs) as Hh. unfold insert_equal_lower.
    sruns. eapply runs_root; [by eapply sin_hdr|]. sruns. apply runs_tree_fuel. destruct Hs as (Ht & _).
    eapply (settled_bind (fun c => equal_lower_loop c _ _ _ kt) _ _ _ (bnd xs) 1); [| |lia].
    { eapply settled_mono; [by eapply (equal_lower_count comp _ _ _ _ _ _ _ Top)|done]. }
    intros y w' _. apply m_insert_lower_count.
  Qed.
  Lemma insert_equal_lower_node_count comp o xs t hf z kv w :
    sin o xs (w_heap w) hf t -> rd (w_heap w) (TARef z) kv -> settled (fun c => insert_equal_lower_node c o z) comp w (bnd xs + 1).
  Proof.
    intros Hs Hk. pose proof (sin_height _ _ _ _ _ _ Hs) as Hh. unfold insert_equal_lower_node.
    sruns. eapply runs_root; [by eapply sin_hdr|]. sruns. apply runs_tree_fuel. destruct Hs as (Ht & _).
    eapply (settled_bind (fun c => equal_lower_loop c _ _ _ (TARef z)) _ _ _ (bnd xs) 1); [| |lia].
    { eapply settled_mono; [by eapply (equal_lower_count comp _ _ _ _ _ _ _ Top)|done]. }
    intros y w' _. apply m_insert_lower_node_count.
  Qed.

  (** the continuation after the new node is made sees the same tree *)
  Lemma after_create {A} comp o xs t hf x v w n (b : A) (k : K -> addr -> M (tcell V) A) :
    sin o xs (w_heap w) hf t -> rd (w_heap w) x v -> w_err w = None ->
    (forall z w1 hf1, sin o xs (w_heap w1) hf1 t -> rd (w_heap w1) (TARef z) v -> settled (fun c => k c z) comp w1 n) ->
    settled (fun c => let! z := tcreate_node cf o x in
                      let! e := has_err in
                      if (e : bool) then ret b else
                      let! z := deref z in k c z) comp w n.
  Proof.
    intros Hs Hx He HK. sruns. eapply create_spec; [done|exact Hx| |].
    - intros a orc Ha. sruns. apply runs_has_err. simpl. sruns. apply runs_deref.
      destruct (created _ _ _ _ _ _ _ v Hs Ha) as (Hs' & Hfa & Hrd). eapply HK; [exact Hs'|exact Hrd].
    - intros w' e Hw' He' _. sruns. apply runs_has_err. rewrite He'. apply settled_const.
  Qed.
  Lemma emplace_unique_count comp o xs t hf x v w :
    sin o xs (w_heap w) hf t -> rd (w_heap w) x v -> w_err w = None ->
    settled (fun c => emplace_unique cf c o x) comp w (bnd xs + 2).
  Proof.
    intros Hs Hx He. unfold emplace_unique. eapply after_create; [exact Hs|exact Hx|done|]. intros z w1 hf1 Hs1 Hz.
    eapply (settled_bind (fun c => insert_unique_pos c o (TARef z)) _ _ _ (bnd xs + 1) 1); [by eapply unique_find_count| |lia].
    intros [y [p|]] w' _; simpl; [|apply settled_const].
    eapply (settled_bind (fun c => m_insert_node c o y p z) (fun _ pos => ret (pos, true)) _ _ 1 0); [apply m_insert_node_count| |lia].
    intros. apply settled_const.
  Qed.
  Lemma emplace_equal_count comp o xs t hf x v w :
    sin o xs (w_heap w) hf t -> rd (w_heap w) x v -> w_err w = None ->
    settled (fun c => emplace_equal cf c o x) comp w (bnd xs + 1).
  Proof.
    intros Hs Hx He. unfold emplace_equal. eapply after_create; [exact Hs|exact Hx|done|]. intros z w1 hf1 Hs1 Hz.
    eapply (settled_bind (fun c => insert_equal_pos c o (TARef z)) _ _ _ (bnd xs) 1); [by eapply equal_find_count| |lia].
    intros [y [p|]] w' _; simpl; [|apply settled_const]. apply m_insert_node_count.
  Qed.

  (** ** Hints *)

  (** the neighbours of the hint do not tell the place *)
  Definition hint_bad comp xs i (v : V) : Prop :=
    (length xs <= i /\ exists p, last xs = Some p /\ comp p.2 v = false) \/
    (exists j p q, i = S j /\ xs !! j = Some q /\ xs !! i = Some p /\ comp v p.2 = true /\ comp q.2 v = false) \/
    (exists p q, xs !! i = Some p /\ xs !! S i = Some q /\ comp p.2 v = true /\ comp v q.2 = false).

  Lemma runs_tread_at o xs t hf i a v w (Q : V -> W -> Prop) :
    sin o xs (w_heap w) hf t -> xs !! i = Some (a, v) -> Q v w -> runs (tread a) w Q.
  Proof.
    intros (Ht & <- & _) Hi HQ. destruct (find_ctx t i a v Hi) as (k & c & l & r & Hp & _). rewrite Hp in Ht.
    by eapply runs_tread_node.
  Qed.
  Lemma last_elem o xs : 0 < length xs -> exists v, last xs = Some (last_of (t_hdr o) xs, v) /\ xs !! pred (length xs) = Some (last_of (t_hdr o) xs, v).
  Proof.
    intros Hl. destruct xs as [|[a v] xs _] using rev_ind; [simpl in Hl; lia|]. exists v. rewrite last_snoc', last_snoc. split; [done|].
    rewrite app_length. simpl. replace (pred (length xs + 1)) with (length xs) by lia. by rewrite list_lookup_middle.
  Qed.
  Lemma hint_count comp o xs t hf i kt kv w f :
    sin o xs (w_heap w) hf t -> rd (w_heap w) kt kv -> (hint_bad comp xs i kv -> bnd xs + 1 <= f) ->
    settled (fun c => insert_hint_unique_pos c o (tpos (t_hdr o) xs i) kt) comp w (3 + f).
  Proof.
    intros Hs Hk Hf. unfold insert_hint_unique_pos, t_end.
    assert (hint_bad comp xs i kv -> settled (fun c => insert_unique_pos c o kt) comp w f) as Hfull.
    { intros Hb. eapply settled_mono; [by eapply unique_find_count|auto]. }
    pose proof Hs as (Ht & HE & Hrb & Ha).
    destruct (decide _) as [Hend|Hend].
    - assert (length xs <= i) as Hi. { destruct (decide (i < length xs)); [|lia]. by destruct (tpos_ne _ _ _ _ _ _ i Hs). }
      sruns. unfold t_size. eapply runs_get_count; [exact (tin_hdr _ _ _ _ _ _ _ _ Ht)|].
      destruct (decide _) as [Hlen|Hlen].
      2: { sruns. apply runs_ret. eapply settled_mono; [by eapply unique_find_count|].
           destruct xs; simpl in *; [unfold bound; simpl; lia|lia]. }
      destruct (last_elem o xs Hlen) as (v & Hlast & Hlk).
      apply settled_runs_assoc. eapply (runs_get_rm (t_hdr o)); [exact (tin_hdr _ _ _ _ _ _ _ _ Ht)|].
      apply settled_runs_assoc. apply runs_deref.
      apply settled_runs_assoc. eapply runs_tread_at; [exact Hs|exact Hlk|].
      apply settled_runs_assoc. apply (rd_reads _ _ kv); [done|].
      eapply settled_mono; [apply settled_ask_ret with (n := f)|lia].
      destruct (comp v kv) eqn:Ec; [apply settled_const|]. apply Hfull. left. split; [done|]. eauto.
    - assert (i < length xs) as Hi. { destruct (decide (length xs <= i)); [|lia]. by rewrite tpos_end in Hend. }
      apply lookup_lt_is_Some in Hi as [[pos vi] Hi]. rewrite (tpos_some _ _ _ _ _ Hi) in *.
      sruns. apply (rd_reads _ _ kv); [done|]. sruns. eapply runs_tread_at; [exact Hs|exact Hi|].
      apply settled_if; intros Ec.
      + sruns. eapply (runs_get_lm (t_hdr o)); [exact (tin_hdr _ _ _ _ _ _ _ _ Ht)|].
        destruct (decide _) as [Hl|Hl]; [apply settled_const|].
        destruct i as [|i].
        { exfalso. apply Hl. f_equal. unfold first_of. destruct xs as [|[] ?]; simpl in *; congruence. }
        sruns. pose proof (runs_dec (wk never) o xs hf t i w) as Hdec. rewrite (tpos_some _ _ _ _ _ Hi) in Hdec.
        pose proof (lookup_lt_Some _ _ _ Hi) as Hlt.
        eapply Hdec; [exact Hs|lia|]. clear Hdec.
        assert (i < length xs) as Hi' by lia. apply lookup_lt_is_Some in Hi' as [[bf vb] Hb].
        rewrite (tpos_some _ _ _ _ _ Hb). sruns. eapply runs_tread_at; [exact Hs|exact Hb|]. sruns. apply (rd_reads _ _ kv); [done|].
        apply settled_if; intros Ecb; [apply settled_const|].
        eapply settled_mono; [apply Hfull|lia]. right; left. exists i. eauto 10.
      + sruns. eapply runs_tread_at; [exact Hs|exact Hi|]. sruns. apply (rd_reads _ _ kv); [done|].
        apply settled_if; intros Ec2; [|apply settled_const].
        sruns. eapply (runs_get_rm (t_hdr o)); [exact (tin_hdr _ _ _ _ _ _ _ _ Ht)|].
        destruct (decide _) as [Hl|Hl]; [apply settled_const|].
        pose proof (lookup_lt_Some _ _ _ Hi) as Hlt.
        assert (S i < length xs) as Hi2.
        { destruct (decide (S i = length xs)) as [Heq|]; [|lia]. exfalso. apply Hl. f_equal.
          destruct (last_elem o xs ltac:(lia)) as (v & _ & Hlk). replace (pred (length xs)) with i in Hlk by lia. congruence. }
        apply lookup_lt_is_Some in Hi2 as [[af va] Hb].
        sruns. pose proof (runs_inc (wk never) o xs hf t i w) as Hinc. rewrite (tpos_some _ _ _ _ _ Hi), (tpos_some _ _ _ _ _ Hb) in Hinc.
        eapply Hinc; [exact Hs|lia|]. clear Hinc.
        sruns. apply (rd_reads _ _ kv); [done|]. sruns. eapply runs_tread_at; [exact Hs|exact Hb|].
        apply settled_if; intros Eca; [apply settled_const|].
        apply Hfull. right; right. eauto 10.
  Qed.

  Lemma insert_at_count comp o xs t hf i kt kv w f :
    sin o xs (w_heap w) hf t -> rd (w_heap w) kt kv -> (hint_bad comp xs i kv -> bnd xs + 1 <= f) ->
    settled (fun c => insert_unique_at cf c o (tpos (t_hdr o) xs i) kt) comp w (4 + f).
  Proof.
    intros Hs Hk Hf. unfold insert_unique_at.
    eapply (settled_bind (fun c => insert_hint_unique_pos c o _ kt) _ _ _ (3 + f) 1); [by eapply hint_count| |lia].
    intros [x [p|]] w' _; simpl; [|apply settled_const]. apply m_insert_count.
  Qed.
  Lemma emplace_hint_count comp o xs t hf i kt kv w f :
    sin o xs (w_heap w) hf t -> rd (w_heap w) kt kv -> w_err w = None -> (hint_bad comp xs i kv -> bnd xs + 1 <= f) ->
    settled (fun c => emplace_hint_unique cf c o (tpos (t_hdr o) xs i) kt) comp w (4 + f).
  Proof.
    intros Hs Hk He Hf. unfold emplace_hint_unique. eapply after_create; [exact Hs|exact Hk|done|]. intros z w1 hf1 Hs1 Hz.
    eapply (settled_bind (fun c => insert_hint_unique_pos c o _ (TARef z)) _ _ _ (3 + f) 1); [by eapply hint_count| |lia].
    intros [x [p|]] w' _; simpl; [|apply settled_const]. apply m_insert_node_count.
  Qed.

  (** the same for trees that keep equal values *)
  Lemma equal_find_cruns comp o xs t hf kt kv w :
    sin o xs (w_heap w) hf t -> rd (w_heap w) kt kv ->
    cruns (fun c => insert_equal_pos c o kt) comp w (fun n r w' => n = bnd xs /\ w' = w /\ r.2 <> None).
  Proof.
    intros Hs Hk. apply (cruns_intro _ _ _ _ (fun r w' => w' = w /\ r.2 <> None)); [by eapply equal_find_count|].
    unfold insert_equal_pos, t_end. rbind. eapply runs_root; [by eapply sin_hdr|]. rbind. apply runs_tree_fuel.
    pose proof (tree_height_fuel _ _ _ _ _ _ Hs) as Hf. destruct Hs as (Ht & _).
    rbind. eapply (equal_pos_any comp _ (t_hdr o) _ _ _ _ _ Top t kt kv); [exact Ht|exact Hk|done|done|].
    intros. by apply runs_ret.
  Qed.
  Lemma hint_equal_count comp o xs t hf i kt kv w :
    sin o xs (w_heap w) hf t -> rd (w_heap w) kt kv ->
    cruns (fun c => insert_hint_equal_pos c o (tpos (t_hdr o) xs i) kt) comp w
      (fun n r w' => w' = w /\ (n <= 2 \/ (n <= bnd xs + 2 /\ r.2 <> None))).
  Proof.
    intros Hs Hk. unfold insert_hint_equal_pos, t_end. pose proof Hs as (Ht & HE & Hrb & Ha).
    destruct (decide _) as [Hend|Hend].
    - cstep. unfold t_size. eapply runs_get_count; [exact (tin_hdr _ _ _ _ _ _ _ _ Ht)|].
      destruct (decide _) as [Hlen|Hlen].
      2: { cstep. apply runs_ret. eapply cruns_mono; [by eapply equal_find_cruns|].
           simpl. intros n r w' (-> & -> & Hr). split; [done|]. right. split; [lia|done]. }
      destruct (last_elem o xs Hlen) as (v & Hlast & Hlk).
      cbind. cstep. eapply (runs_get_rm (t_hdr o)); [exact (tin_hdr _ _ _ _ _ _ _ _ Ht)|].
      cstep. apply runs_deref. cstep. apply (rd_reads _ _ kv); [done|].
      cstep. eapply runs_tread_at; [exact Hs|exact Hlk|].
      apply (cruns_ask kv v (fun _ b => ret (negb b))). apply cruns_ret. destruct (negb (comp kv v)) eqn:Ec.
      + cstep. eapply (runs_get_rm (t_hdr o)); [exact (tin_hdr _ _ _ _ _ _ _ _ Ht)|]. apply cruns_ret. split; [done|]. left. lia.
      + eapply cruns_mono; [by eapply equal_find_cruns|].
        simpl. intros n r w' (-> & -> & Hr). split; [done|]. right. split; [lia|done].
    - assert (i < length xs) as Hi. { destruct (decide (length xs <= i)); [|lia]. by rewrite tpos_end in Hend. }
      apply lookup_lt_is_Some in Hi as [[pos vi] Hi]. rewrite (tpos_some _ _ _ _ _ Hi) in *.
      cstep. eapply runs_tread_at; [exact Hs|exact Hi|]. cstep. apply (rd_reads _ _ kv); [done|].
      match goal with |- cruns (fun c => if negb (c vi kv) then @?m1 c else @?m2 c) _ _ _ =>
        apply (cruns_ask vi kv (fun c b => if negb b then m1 c else m2 c)) end.
      destruct (negb (comp vi kv)) eqn:Ec.
      + cstep. eapply (runs_get_lm (t_hdr o)); [exact (tin_hdr _ _ _ _ _ _ _ _ Ht)|].
        destruct (decide _) as [Hl|Hl]; [apply cruns_ret; split; [done|left; lia]|].
        destruct i as [|i].
        { exfalso. apply Hl. f_equal. unfold first_of. destruct xs as [|[] ?]; simpl in *; congruence. }
        cstep. pose proof (runs_dec (wk never) o xs hf t i w) as Hdec. rewrite (tpos_some _ _ _ _ _ Hi) in Hdec.
        pose proof (lookup_lt_Some _ _ _ Hi) as Hlt.
        eapply Hdec; [exact Hs|lia|]. clear Hdec.
        assert (i < length xs) as Hi' by lia. apply lookup_lt_is_Some in Hi' as [[bf vb] Hb].
        rewrite (tpos_some _ _ _ _ _ Hb). cstep. apply (rd_reads _ _ kv); [done|].
        cstep. eapply runs_tread_at; [exact Hs|exact Hb|].
        match goal with |- cruns (fun c => if negb (c kv vb) then @?m1 c else @?m2 c) _ _ _ =>
          apply (cruns_ask kv vb (fun c b => if negb b then m1 c else m2 c)) end.
        destruct (negb (comp kv vb)) eqn:Ecb.
        * apply cruns_const. destruct (find_ctx t i bf vb) as (k & c & l & r & Hp & _); [by rewrite HE|].
          rewrite Hp in Ht. rbind. eapply (runs_get_child _ DR); [by eapply tin_node|].
          destruct (root r); apply runs_ret; (split; [done|]); left; lia.
        * eapply cruns_mono; [by eapply equal_find_cruns|].
          simpl. intros n r w' (-> & -> & Hr). split; [done|]. right. split; [lia|done].
      + cstep. eapply (runs_get_rm (t_hdr o)); [exact (tin_hdr _ _ _ _ _ _ _ _ Ht)|].
        destruct (decide _) as [Hl|Hl]; [apply cruns_ret; split; [done|left; lia]|].
        pose proof (lookup_lt_Some _ _ _ Hi) as Hlt.
        assert (S i < length xs) as Hi2.
        { destruct (decide (S i = length xs)) as [Heq|]; [|lia]. exfalso. apply Hl. f_equal.
          destruct (last_elem o xs ltac:(lia)) as (v & _ & Hlk). replace (pred (length xs)) with i in Hlk by lia. congruence. }
        apply lookup_lt_is_Some in Hi2 as [[af va] Hb].
        cstep. pose proof (runs_inc (wk never) o xs hf t i w) as Hinc. rewrite (tpos_some _ _ _ _ _ Hi), (tpos_some _ _ _ _ _ Hb) in Hinc.
        eapply Hinc; [exact Hs|lia|]. clear Hinc.
        cstep. eapply runs_tread_at; [exact Hs|exact Hb|]. cstep. apply (rd_reads _ _ kv); [done|].
        match goal with |- cruns (fun c => if negb (c va kv) then @?m1 c else @?m2 c) _ _ _ =>
          apply (cruns_ask va kv (fun c b => if negb b then m1 c else m2 c)) end.
        destruct (negb (comp va kv)) eqn:Eca; [|apply cruns_ret; split; [done|left; lia]].
        apply cruns_const. destruct (find_ctx t i pos vi) as (k & c & l & r & Hp & _); [by rewrite HE|].
        rewrite Hp in Ht. rbind. eapply (runs_get_child _ DR); [by eapply tin_node|].
        destruct (root r); apply runs_ret; (split; [done|]); left; lia.
  Qed.
  Lemma insert_equal_at_count comp o xs t hf i kt kv w :
    sin o xs (w_heap w) hf t -> rd (w_heap w) kt kv ->
    settled (fun c => insert_equal_at cf c o (tpos (t_hdr o) xs i) kt) comp w (bnd xs + 3).
  Proof.
    intros Hs Hk. unfold insert_equal_at. destruct (hint_equal_count comp o xs t hf i kt kv w Hs Hk) as (r & w' & n & Hr & Hn & -> & Hc).
    destruct r as [x [p|]].
    - eapply (settled_bind (fun c => insert_hint_equal_pos c o _ kt) _ _ _ n 1); [done| |simpl in Hc; lia].
      intros a w' Ha. rewrite Hr in Ha. simplify_eq. apply m_insert_count.
    - eapply (settled_bind (fun c => insert_hint_equal_pos c o _ kt) _ _ _ n (bnd xs + 1)); [done| |destruct Hc as [?|[? ?]]; [lia|done]].
      intros a w' Ha. rewrite Hr in Ha. simplify_eq. by eapply insert_equal_lower_count.
  Qed.
  Lemma emplace_hint_equal_count comp o xs t hf i kt kv w :
    sin o xs (w_heap w) hf t -> rd (w_heap w) kt kv -> w_err w = None ->
    settled (fun c => emplace_hint_equal cf c o (tpos (t_hdr o) xs i) kt) comp w (bnd xs + 3).
  Proof.
    intros Hs Hk He. unfold emplace_hint_equal. eapply after_create; [exact Hs|exact Hk|done|]. intros z w1 hf1 Hs1 Hz.
    destruct (hint_equal_count comp o xs t hf1 i (TARef z) kv w1 Hs1 Hz) as (r & w' & n & Hr & Hn & -> & Hc).
    destruct r as [x [p|]].
    - eapply (settled_bind (fun c => insert_hint_equal_pos c o _ (TARef z)) _ _ _ n 1); [done| |simpl in Hc; lia].
      intros a w' Ha. rewrite Hr in Ha. simplify_eq. apply m_insert_node_count.
    - eapply (settled_bind (fun c => insert_hint_equal_pos c o _ (TARef z)) _ _ _ n (bnd xs + 1)); [done| |destruct Hc as [?|[? ?]]; [lia|done]].
      intros a w' Ha. rewrite Hr in Ha. simplify_eq. by eapply insert_equal_lower_node_count.
  Qed.
End cnt.
