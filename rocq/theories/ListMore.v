(** * Push, pop, multiple insertion, assignment, copies, comparison *)
From Verif Require Export ListSort.

Section more.
  Context {V : Type} (cf : cfg V).
  Notation H := (gmap addr (lcell V)).
  Notation W := (world (lcell V)).
  Notation L := (list (addr * list (addr * V))).
  Notation E := (addr * V)%type.
  Implicit Types hv hf : H.
  Implicit Types w : W.
  Implicit Types ls R : L.

  Lemma arg_in_is w al ls hv hf x v :
    heap_is w hv hf -> lists_own al ls hv -> arg_in ls hf x v -> larg_is (w_heap w) x v.
  Proof.
    intros [Hw Hd] Ho. destruct x as [y|a]; simpl; [done|]. rewrite Hw.
    intros [Hin|[al' Hb]].
    - exists al. apply (proj2 (own_bodies _ _ _ Ho)) in Hin. unfold bd in *.
      destruct (hv !! a) as [c|] eqn:Ec; [|done]. by rewrite (lookup_union_Some_l _ _ _ _ Ec).
    - exists al'. unfold bd in *. destruct (hf !! a) as [c|] eqn:Ec; [|done].
      by rewrite (lookup_union_Some_r _ _ _ _ Hd Ec).
  Qed.
  Lemma arg_in_mono ls ls' hf x v :
    (forall p, p ∈ concat ls.*2 -> p ∈ concat ls'.*2) -> arg_in ls hf x v -> arg_in ls' hf x v.
  Proof. intros Hs. destruct x; simpl; [done|]. intros [?|?]; [left; by apply Hs|by right]. Qed.
  Lemma arg_in_perm ls ls' hf x v : ls ≡ₚ ls' -> arg_in ls hf x v -> arg_in ls' hf x v.
  Proof. intros Hp. apply arg_in_mono. intros p. assert (concat ls.*2 ≡ₚ concat ls'.*2) as ->; [|done]. apply concat_perm. by apply fmap_Permutation. Qed.

  (** What an insertion into the first list guarantees. *)
  Lemma runs_insert w al hdr l r R hv hf x v (Q : _ -> W -> Prop) :
    heap_is w hv hf -> lists_own al ((hdr, l ++ r) :: R) hv -> w_err w = None -> arg_in ((hdr, l ++ r) :: R) hf x v ->
    (forall a hv' w', w_heap w !! a = None -> lists_own al ((hdr, l ++ (a, v) :: r) :: R) hv' -> heap_is w' hv' hf ->
       w_err w' = None -> w_allocs w' = S (w_allocs w) -> w_ctors w' = S (w_ctors w) -> Q a w') ->
    (forall w' e, w_heap w' = w_heap w -> w_err w' = Some e -> node_error cf e -> w_allocs w' = S (w_allocs w) -> Q hdr w') ->
    runs (lst_insert cf (Lst al hdr) (hdx r.*1 hdr) x) w Q.
  Proof.
    intros Hh Ho He Hx Hok Hfail. unfold lst_insert. eapply runs_emplace; try done.
    by eapply arg_in_is.
  Qed.

  Lemma heap_is_eq w w' hv hf : heap_is w hv hf -> w_heap w' = w_heap w -> heap_is w' hv hf.
  Proof. intros [Hw Hd] He. split; [congruence|done]. Qed.

  Lemma runs_push_back w al hdr xs R hv hf x v (Q : _ -> W -> Prop) :
    heap_is w hv hf -> lists_own al ((hdr, xs) :: R) hv -> w_err w = None -> arg_in ((hdr, xs) :: R) hf x v ->
    (forall a hv' w', w_heap w !! a = None -> lists_own al ((hdr, xs ++ [(a, v)]) :: R) hv' -> heap_is w' hv' hf ->
       w_err w' = None -> w_allocs w' = S (w_allocs w) -> w_ctors w' = S (w_ctors w) -> Q tt w') ->
    (forall w' e, w_heap w' = w_heap w -> w_err w' = Some e -> node_error cf e -> w_allocs w' = S (w_allocs w) -> Q tt w') ->
    runs (lst_push_back cf (Lst al hdr) x) w Q.
  Proof.
    intros Hh Ho He Hx Hok Hfail. unfold lst_push_back. rbind. eapply runs_end; [done..|]. rbind.
    eapply (runs_insert w al hdr xs []); rewrite ?app_nil_r; try done.
    - intros. apply runs_ret. by eapply Hok.
    - intros. apply runs_ret. by eapply Hfail.
  Qed.
  Lemma runs_push_front w al hdr xs R hv hf x v (Q : _ -> W -> Prop) :
    heap_is w hv hf -> lists_own al ((hdr, xs) :: R) hv -> w_err w = None -> arg_in ((hdr, xs) :: R) hf x v ->
    (forall a hv' w', w_heap w !! a = None -> lists_own al ((hdr, (a, v) :: xs) :: R) hv' -> heap_is w' hv' hf ->
       w_err w' = None -> w_allocs w' = S (w_allocs w) -> w_ctors w' = S (w_ctors w) -> Q tt w') ->
    (forall w' e, w_heap w' = w_heap w -> w_err w' = Some e -> node_error cf e -> w_allocs w' = S (w_allocs w) -> Q tt w') ->
    runs (lst_push_front cf (Lst al hdr) x) w Q.
  Proof.
    intros Hh Ho He Hx Hok Hfail. unfold lst_push_front. rbind. eapply runs_begin; [done..|]. rbind.
    eapply (runs_insert w al hdr [] xs); try done.
    - intros. apply runs_ret. by eapply Hok.
    - intros. apply runs_ret. by eapply Hfail.
  Qed.
  Lemma runs_pop_back w al hdr xs a v R hv hf (Q : _ -> W -> Prop) :
    heap_is w hv hf -> lists_own al ((hdr, xs ++ [(a, v)]) :: R) hv ->
    relinked al ((hdr, xs) :: R) hf w tt Q ->
    runs (lst_pop_back cf (Lst al hdr)) w Q.
  Proof.
    intros Hh Ho HQ. pose proof Ho as Ho2. rewrite <-(app_nil_r (xs ++ _)) in Ho2.
    destruct (own_link_at _ _ _ _ _ _ Ho2) as [_ Hp]. rewrite fmap_app in Hp. simpl in Hp. rewrite lastd_snoc in Hp.
    unfold lst_pop_back. simpl. rbind. eapply runs_get_prev; [done..|]. rbind. eapply runs_mk_iter; [done|exact Ho|apply node_in|].
    rbind. eapply (runs_erase cf w al hdr xs a v []); [done..|]. intros hv' Ho' _ Hh'. apply runs_ret.
    rewrite app_nil_r in Ho'. by apply HQ.
  Qed.
  Lemma runs_pop_front w al hdr xs a v R hv hf (Q : _ -> W -> Prop) :
    heap_is w hv hf -> lists_own al ((hdr, (a, v) :: xs) :: R) hv ->
    relinked al ((hdr, xs) :: R) hf w tt Q ->
    runs (lst_pop_front cf (Lst al hdr)) w Q.
  Proof.
    intros Hh Ho HQ. unfold lst_pop_front. rbind. eapply runs_begin; [done..|]. rbind.
    eapply (runs_erase cf w al hdr [] a v xs); [done..|]. intros hv' Ho' _ Hh'. apply runs_ret. by apply HQ.
  Qed.

  (** ** Several elements *)

  Lemma concat_cons_sub (xs xs' : list E) hdr R :
    (forall p, p ∈ xs -> p ∈ xs') -> forall p, p ∈ concat ((hdr, xs) :: R).*2 -> p ∈ concat ((hdr, xs') :: R).*2.
  Proof. intros Hs p. simpl. rewrite !elem_of_app. naive_solver. Qed.

  Lemma runs_insert_n n w al hdr l r R hv hf x v (Q : _ -> W -> Prop) :
    heap_is w hv hf -> lists_own al ((hdr, l ++ r) :: R) hv -> w_err w = None -> arg_in ((hdr, l ++ r) :: R) hf x v ->
    (forall m hv' w', m.*2 = replicate n v -> lists_own al ((hdr, l ++ m ++ r) :: R) hv' -> heap_is w' hv' hf ->
       w_err w' = None -> Q tt w') ->
    (forall k m hv' w' e, k < n -> m.*2 = replicate k v -> lists_own al ((hdr, l ++ m ++ r) :: R) hv' -> heap_is w' hv' hf ->
       w_err w' = Some e -> node_error cf e -> Q tt w') ->
    runs (lst_insert_n cf (Lst al hdr) (hdx r.*1 hdr) n x) w Q.
  Proof.
    revert w hv r. induction n as [|n IH]; intros w hv r Hh Ho He Hx Hok Hfail; simpl.
    - apply runs_ret. by eapply (Hok []).
    - rbind. eapply runs_insert; [done..| |].
      + intros a hv' w' Ha Ho' Hh' He' _ _. rbind. apply runs_has_err. rewrite He'.
        eapply (IH w' hv' ((a, v) :: r)); try done.
        * eapply arg_in_mono; [|exact Hx]. apply concat_cons_sub. intros p. set_solver.
        * intros m hv2 w2 Hm Ho2 Hh2 He2. eapply (Hok (m ++ [(a, v)])); [|by rewrite <-(assoc_L (++))|done..].
          rewrite fmap_app, Hm. simpl. by rewrite <-(replicate_cons_app n v).
        * intros k m hv2 w2 e Hk Hm Ho2 Hh2 He2 Hne. eapply (Hfail (S k) (m ++ [(a, v)])); [lia| |by rewrite <-(assoc_L (++))|done..].
          rewrite fmap_app, Hm. simpl. by rewrite <-(replicate_cons_app k v).
      + intros w' e Hw' He' Hne _. rbind. apply runs_has_err. rewrite He'. apply runs_ret.
        eapply (Hfail 0 []); [lia|done|done|by eapply heap_is_eq|done..].
  Qed.

  (** the elements of a range end up in front of [pos] in reverse order *)
  Lemma runs_insert_range xs vs w al hdr l r R hv hf (Q : _ -> W -> Prop) :
    heap_is w hv hf -> lists_own al ((hdr, l ++ r) :: R) hv -> w_err w = None ->
    Forall2 (arg_in ((hdr, l ++ r) :: R) hf) xs vs ->
    (forall m hv' w', m.*2 = reverse vs -> lists_own al ((hdr, l ++ m ++ r) :: R) hv' -> heap_is w' hv' hf ->
       w_err w' = None -> Q tt w') ->
    (forall k m hv' w' e, k < length vs -> m.*2 = reverse (take k vs) -> lists_own al ((hdr, l ++ m ++ r) :: R) hv' -> heap_is w' hv' hf ->
       w_err w' = Some e -> node_error cf e -> Q tt w') ->
    runs (lst_insert_range cf (Lst al hdr) (hdx r.*1 hdr) xs) w Q.
  Proof.
    revert vs w hv r. induction xs as [|x xs IH]; intros vs w hv r Hh Ho He Hx Hok Hfail; simpl.
    - apply Forall2_nil_inv_l in Hx as ->. apply runs_ret. by eapply (Hok []).
    - apply Forall2_cons_inv_l in Hx as (v & vs' & Hx & Hxs & ->).
      rbind. eapply runs_insert; [done..| |].
      + intros a hv' w' Ha Ho' Hh' He' _ _. rbind. apply runs_has_err. rewrite He'.
        eapply (IH vs' w' hv' ((a, v) :: r)); try done.
        * eapply Forall2_impl; [exact Hxs|]. intros y u. apply arg_in_mono. apply concat_cons_sub. intros p. set_solver.
        * intros m hv2 w2 Hm Ho2 Hh2 He2. eapply (Hok (m ++ [(a, v)])); [|by rewrite <-(assoc_L (++))|done..].
          rewrite fmap_app, Hm. simpl. by rewrite reverse_cons.
        * intros k m hv2 w2 e Hk Hm Ho2 Hh2 He2 Hne. eapply (Hfail (S k) (m ++ [(a, v)])); [simpl; lia| |by rewrite <-(assoc_L (++))|done..].
          rewrite fmap_app, Hm. simpl. by rewrite reverse_cons.
      + intros w' e Hw' He' Hne _. rbind. apply runs_has_err. rewrite He'. apply runs_ret.
        eapply (Hfail 0 []); [simpl; lia|done|done|by eapply heap_is_eq|done..].
  Qed.

  Lemma runs_erase_range w al hdr l m r R hv hf (Q : _ -> W -> Prop) :
    heap_is w hv hf -> lists_own al ((hdr, l ++ m ++ r) :: R) hv ->
    relinked al ((hdr, l ++ r) :: R) hf w (hdx r.*1 hdr) Q ->
    runs (lst_erase_range cf (Lst al hdr) (hdx (m ++ r).*1 hdr) (hdx r.*1 hdr)) w Q.
  Proof.
    intros Hh Ho HQ. unfold lst_erase_range. rbind. eapply runs_heap_fuel; [done..|]. intros fuel Hfu.
    rewrite !app_length in Hfu. assert (Hf : length m < fuel) by lia. clear Hfu.
    revert w hv m Hh Ho Hf HQ. induction fuel as [|fuel IH]; intros w hv m Hh Ho Hf HQ; [lia|]. simpl.
    rbind. eapply runs_it_eq; [done|exact Ho|apply hdx_in|rewrite (assoc_L (++)); apply hdx_in|].
    destruct m as [|[a v] m]; simpl.
    - rewrite bool_decide_true by done. eapply runs_mk_iter; [done|exact Ho|apply hdx_in|].
      rewrite <-(heap_is_self _ _ _ Hh). apply HQ; [done|]. by rewrite (heap_is_self _ _ _ Hh).
    - rewrite bool_decide_false.
      2: { destruct r as [|[z t] r]; simpl; [by eapply own_hdr_ne|].
           eapply (own_nodup_at _ _ l a v _ _ _ z t m); [exact Ho|done]. }
      rbind. eapply runs_erase; [done|exact Ho|]. intros hv' Ho' _ Hh'.
      eapply IH; [exact Hh'|exact Ho'|simpl in Hf; lia|]. intros hv2 Ho2 Hh2. by apply HQ.
  Qed.

  (** appending *)
  Lemma runs_push_n n w al hdr xs R hv hf x v (Q : _ -> W -> Prop) :
    heap_is w hv hf -> lists_own al ((hdr, xs) :: R) hv -> w_err w = None -> arg_in ((hdr, xs) :: R) hf x v ->
    (forall m hv' w', m.*2 = replicate n v -> lists_own al ((hdr, xs ++ m) :: R) hv' -> heap_is w' hv' hf ->
       w_err w' = None -> Q tt w') ->
    (forall k m hv' w' e, k < n -> m.*2 = replicate k v -> lists_own al ((hdr, xs ++ m) :: R) hv' -> heap_is w' hv' hf ->
       w_err w' = Some e -> node_error cf e -> Q tt w') ->
    runs (push_n_loop cf (Lst al hdr) n x) w Q.
  Proof.
    revert w hv xs. induction n as [|n IH]; intros w hv xs Hh Ho He Hx Hok Hfail; simpl.
    - apply runs_ret. eapply (Hok []); [done|by rewrite app_nil_r|done..].
    - rbind. eapply runs_push_back; [done..| |].
      + intros a hv' w' Ha Ho' Hh' He' _ _. rbind. apply runs_has_err. rewrite He'.
        eapply (IH w' hv' (xs ++ [(a, v)])); try done.
        * eapply arg_in_mono; [|exact Hx]. apply concat_cons_sub. intros p. set_solver.
        * intros m hv2 w2 Hm Ho2 Hh2 He2. eapply (Hok ((a, v) :: m)); [simpl; by f_equal|by rewrite <-(assoc_L (++)) in Ho2|done..].
        * intros k m hv2 w2 e Hk Hm Ho2 Hh2 He2 Hne.
          eapply (Hfail (S k) ((a, v) :: m)); [lia|simpl; by f_equal|by rewrite <-(assoc_L (++)) in Ho2|done..].
      + intros w' e Hw' He' Hne _. rbind. apply runs_has_err. rewrite He'. apply runs_ret.
        eapply (Hfail 0 []); [lia|done|by rewrite app_nil_r|by eapply heap_is_eq|done..].
  Qed.
  Lemma runs_push_args ys vs w al hdr xs R hv hf (Q : _ -> W -> Prop) :
    heap_is w hv hf -> lists_own al ((hdr, xs) :: R) hv -> w_err w = None ->
    Forall2 (arg_in ((hdr, xs) :: R) hf) ys vs ->
    (forall m hv' w', m.*2 = vs -> lists_own al ((hdr, xs ++ m) :: R) hv' -> heap_is w' hv' hf ->
       w_err w' = None -> Q tt w') ->
    (forall k m hv' w' e, k < length vs -> m.*2 = take k vs -> lists_own al ((hdr, xs ++ m) :: R) hv' -> heap_is w' hv' hf ->
       w_err w' = Some e -> node_error cf e -> Q tt w') ->
    runs (push_args_loop cf (Lst al hdr) ys) w Q.
  Proof.
    revert vs w hv xs. induction ys as [|y ys IH]; intros vs w hv xs Hh Ho He Hx Hok Hfail; simpl.
    - apply Forall2_nil_inv_l in Hx as ->. apply runs_ret. eapply (Hok []); [done|by rewrite app_nil_r|done..].
    - apply Forall2_cons_inv_l in Hx as (v & vs' & Hx & Hxs & ->).
      rbind. eapply runs_push_back; [done..| |].
      + intros a hv' w' Ha Ho' Hh' He' _ _. rbind. apply runs_has_err. rewrite He'.
        eapply (IH vs' w' hv' (xs ++ [(a, v)])); try done.
        * eapply Forall2_impl; [exact Hxs|]. intros z u. apply arg_in_mono. apply concat_cons_sub. intros p. set_solver.
        * intros m hv2 w2 Hm Ho2 Hh2 He2. eapply (Hok ((a, v) :: m)); [simpl; by f_equal|by rewrite <-(assoc_L (++)) in Ho2|done..].
        * intros k m hv2 w2 e Hk Hm Ho2 Hh2 He2 Hne.
          eapply (Hfail (S k) ((a, v) :: m)); [simpl; lia|simpl; by f_equal|by rewrite <-(assoc_L (++)) in Ho2|done..].
      + intros w' e Hw' He' Hne _. rbind. apply runs_has_err. rewrite He'. apply runs_ret.
        eapply (Hfail 0 []); [simpl; lia|done|by rewrite app_nil_r|by eapply heap_is_eq|done..].
  Qed.
  Lemma runs_push_nodes fuel w al hdr xs ht a m b R hv hf last (Q : _ -> W -> Prop) :
    heap_is w hv hf -> lists_own al ((hdr, xs) :: (ht, a ++ m ++ b) :: R) hv -> w_err w = None ->
    length m < fuel -> last = hdx b.*1 ht ->
    (forall m' hv' w', m'.*2 = m.*2 -> lists_own al ((hdr, xs ++ m') :: (ht, a ++ m ++ b) :: R) hv' -> heap_is w' hv' hf ->
       w_err w' = None -> Q tt w') ->
    (forall k m' hv' w' e, k < length m -> m'.*2 = take k m.*2 -> lists_own al ((hdr, xs ++ m') :: (ht, a ++ m ++ b) :: R) hv' -> heap_is w' hv' hf ->
       w_err w' = Some e -> node_error cf e -> Q tt w') ->
    runs (push_nodes_loop cf fuel (Lst al hdr) (hdx (m ++ b).*1 ht) last) w Q.
  Proof.
    intros Hh Ho He Hf -> Hok Hfail. revert w hv xs a m Hh Ho He Hf Hok Hfail.
    induction fuel as [|fuel IH]; intros w hv xs a m Hh Ho He Hf Hok Hfail; [lia|].
    assert (Ho2 : lists_own al ((ht, a ++ m ++ b) :: (hdr, xs) :: R) hv).
    { eapply own_perm; [|done]. apply perm_swap. }
    simpl. rbind. eapply runs_it_eq; [done|exact Ho2|apply hdx_in|rewrite (assoc_L (++)); apply hdx_in|].
    destruct m as [|[y v] m]; simpl.
    - rewrite bool_decide_true by done. apply runs_ret. eapply (Hok []); [done|by rewrite app_nil_r|done..].
    - rewrite bool_decide_false.
      2: { destruct b as [|[z t] b]; simpl; [by eapply own_hdr_ne|].
           eapply (own_nodup_at _ _ a y v _ _ _ z t m); [exact Ho2|done]. }
      rbind. eapply runs_check_own; [done|exact Ho2|apply node_in|].
      rbind. eapply (runs_push_back _ _ _ _ _ _ _ _ v); [done|exact Ho|done|simpl; left; set_solver| |].
      + intros c hv' w' Ha Ho' Hh' He' _ _. rbind. apply runs_has_err. rewrite He'.
        assert (Ho2' : lists_own al ((ht, a ++ (y, v) :: m ++ b) :: (hdr, xs ++ [(c, v)]) :: R) hv').
        { eapply own_perm; [|exact Ho']. apply perm_swap. }
        rbind. eapply runs_it_inc; [done|exact Ho2'|].
        eapply (IH w' hv' (xs ++ [(c, v)]) (a ++ [(y, v)]) m); try done.
        * by rewrite <-(assoc_L (++) a).
        * simpl in Hf. lia.
        * intros m' hv2 w2 Hm Ho3 Hh2 He2. rewrite <-(assoc_L (++) a) in Ho3. simpl in Ho3.
          eapply (Hok ((c, v) :: m')); [simpl; by f_equal|by rewrite <-(assoc_L (++)) in Ho3|done..].
        * intros k m' hv2 w2 e Hk Hm Ho3 Hh2 He2 Hne. rewrite <-(assoc_L (++) a) in Ho3. simpl in Ho3.
          eapply (Hfail (S k) ((c, v) :: m')); [simpl; lia|simpl; by f_equal|by rewrite <-(assoc_L (++)) in Ho3|done..].
      + intros w' e Hw' He' Hne _. rbind. apply runs_has_err. rewrite He'. apply runs_ret.
        eapply (Hfail 0 []); [simpl; lia|done|by rewrite app_nil_r|by eapply heap_is_eq|done..].
  Qed.

  (** ** Assignment: the old contents go to a temporary and are destroyed *)

  (** the contents after assignment of [vs]: all of them, or a proper prefix and an error *)
  Definition assigned (al : alloc_id) hdr R hf (vs : list V) (Q : unit -> W -> Prop) : Prop :=
    (forall xs hv' w', xs.*2 = vs -> lists_own al ((hdr, xs) :: R) hv' -> heap_is w' hv' hf -> w_err w' = None -> Q tt w') /\
    (forall k xs hv' w' e, k < length vs -> xs.*2 = take k vs -> lists_own al ((hdr, xs) :: R) hv' -> heap_is w' hv' hf ->
       w_err w' = Some e -> node_error cf e -> Q tt w').

  Lemma runs_drop_tmp0 w al al0 t xs ls hv hf (Q : _ -> W -> Prop) :
    heap_is w hv hf -> lists_own al ((t, xs) :: ls) hv -> al0 = al \/ xs = [] ->
    (forall hv' w', lists_own al ls hv' -> heap_is w' hv' hf -> w_err w' = w_err w -> Q tt w') ->
    runs (lst_destroy (Lst al0 t)) w Q.
  Proof.
    intros Hh Ho Hal HQ. eapply runs_lst_destroy; [done..|]. intros hv' Ho' Hh'. by eapply HQ.
  Qed.
  Lemma runs_drop_tmp w al t xs ls hv hf (Q : _ -> W -> Prop) :
    heap_is w hv hf -> lists_own al ((t, xs) :: ls) hv ->
    (forall hv' w', lists_own al ls hv' -> heap_is w' hv' hf -> w_err w' = w_err w -> Q tt w') ->
    runs (lst_destroy (Lst al t)) w Q.
  Proof. intros Hh Ho HQ. eapply runs_drop_tmp0; [done..|by left|done]. Qed.

  Lemma runs_assign_n n w al hdr xs R hv hf x v (Q : _ -> W -> Prop) :
    heap_is w hv hf -> lists_own al ((hdr, xs) :: R) hv -> w_err w = None -> arg_in ((hdr, xs) :: R) hf x v ->
    c_dflt cf = al \/ xs = [] -> assigned al hdr R hf (replicate n v) Q ->
    runs (lst_assign_n cf (Lst al hdr) n x) w Q.
  Proof.
    intros Hh Ho He Hx Hal [Hok Hfail]. unfold lst_assign_n. rbind. eapply runs_lst_new; [done..|].
    intros t hv1 _ Ho1 Hh1. rbind. eapply (runs_lst_swap cf _ al t [] hdr xs); [done..|]. intros hv2 Ho2 Hh2.
    rbind. eapply (runs_push_n n _ al hdr [] ((t, xs) :: R)); [exact Hh2|eapply own_perm; [|exact Ho2]; apply perm_swap|done|..].
    - eapply arg_in_mono; [|exact Hx]. done.
    - intros m hv3 w3 Hm Ho3 Hh3 He3. eapply (runs_drop_tmp0 _ al _ t xs ((hdr, m) :: R)); [exact Hh3|eapply own_perm; [|exact Ho3]; apply perm_swap|exact Hal|].
      intros hv4 w4 Ho4 Hh4 He4. eapply Hok; [exact Hm|exact Ho4|exact Hh4|by rewrite He4].
    - intros k m hv3 w3 e Hk Hm Ho3 Hh3 He3 Hne. eapply (runs_drop_tmp0 _ al _ t xs ((hdr, m) :: R)); [exact Hh3|eapply own_perm; [|exact Ho3]; apply perm_swap|exact Hal|].
      intros hv4 w4 Ho4 Hh4 He4. eapply (Hfail k _ _ _ e); [by rewrite replicate_length| |exact Ho4|exact Hh4|by rewrite He4|done].
      rewrite take_replicate, Hm. f_equal. lia.
  Qed.
  Lemma runs_assign_args ys vs w al hdr xs R hv hf (Q : _ -> W -> Prop) :
    heap_is w hv hf -> lists_own al ((hdr, xs) :: R) hv -> w_err w = None -> Forall2 (arg_in ((hdr, xs) :: R) hf) ys vs ->
    c_dflt cf = al \/ xs = [] -> assigned al hdr R hf vs Q ->
    runs (lst_assign_args cf (Lst al hdr) ys) w Q.
  Proof.
    intros Hh Ho He Hx Hal [Hok Hfail]. unfold lst_assign_args. rbind. eapply runs_lst_new; [done..|].
    intros t hv1 _ Ho1 Hh1. rbind. eapply (runs_lst_swap cf _ al t [] hdr xs); [done..|]. intros hv2 Ho2 Hh2.
    rbind. eapply (runs_push_args ys vs _ al hdr [] ((t, xs) :: R)); [exact Hh2|eapply own_perm; [|exact Ho2]; apply perm_swap|done|..].
    - eapply Forall2_impl; [exact Hx|]. intros y u. apply arg_in_mono. done.
    - intros m hv3 w3 Hm Ho3 Hh3 He3. eapply (runs_drop_tmp0 _ al _ t xs ((hdr, m) :: R)); [exact Hh3|eapply own_perm; [|exact Ho3]; apply perm_swap|exact Hal|].
      intros hv4 w4 Ho4 Hh4 He4. eapply Hok; [exact Hm|exact Ho4|exact Hh4|by rewrite He4].
    - intros k m hv3 w3 e Hk Hm Ho3 Hh3 He3 Hne. eapply (runs_drop_tmp0 _ al _ t xs ((hdr, m) :: R)); [exact Hh3|eapply own_perm; [|exact Ho3]; apply perm_swap|exact Hal|].
      intros hv4 w4 Ho4 Hh4 He4. eapply (Hfail k _ _ _ e); [exact Hk|exact Hm|exact Ho4|exact Hh4|by rewrite He4|done].
  Qed.
  (** from a range of another list *)
  Lemma runs_assign_nodes w al hdr xs h2 a m b R hv hf (Q : _ -> W -> Prop) :
    heap_is w hv hf -> lists_own al ((hdr, xs) :: (h2, a ++ m ++ b) :: R) hv -> w_err w = None ->
    c_dflt cf = al \/ xs = [] -> assigned al hdr ((h2, a ++ m ++ b) :: R) hf m.*2 Q ->
    runs (lst_assign_nodes cf (Lst al hdr) (hdx (m ++ b).*1 h2) (hdx b.*1 h2)) w Q.
  Proof.
    intros Hh Ho He Hal [Hok Hfail]. unfold lst_assign_nodes. rbind. eapply runs_lst_new; [done..|].
    intros t hv1 _ Ho1 Hh1. rbind. eapply (runs_lst_swap cf _ al t [] hdr xs); [done..|]. intros hv2 Ho2 Hh2.
    assert (Ho2' : lists_own al ((hdr, []) :: (h2, a ++ m ++ b) :: (t, xs) :: R) hv2) by (eapply own_perm; [|exact Ho2]; perm_solve).
    rbind. eapply runs_heap_fuel; [exact Hh2|exact Ho2'|]. intros fuel Hfu. rewrite list_addrs_cons in Hfu. simpl in Hfu.
    rewrite app_length, fmap_length, !app_length in Hfu.
    rbind. eapply (runs_push_nodes fuel _ al hdr [] h2 a m b ((t, xs) :: R)); [exact Hh2|exact Ho2'|done|lia|done|..].
    - intros m' hv3 w3 Hm Ho3 Hh3 He3.
      eapply (runs_drop_tmp0 _ al _ t xs ((hdr, m') :: (h2, a ++ m ++ b) :: R)); [exact Hh3|eapply own_perm; [|exact Ho3]; perm_solve|exact Hal|].
      intros hv4 w4 Ho4 Hh4 He4. eapply Hok; [exact Hm|exact Ho4|exact Hh4|by rewrite He4].
    - intros k m' hv3 w3 e Hk Hm Ho3 Hh3 He3 Hne.
      eapply (runs_drop_tmp0 _ al _ t xs ((hdr, m') :: (h2, a ++ m ++ b) :: R)); [exact Hh3|eapply own_perm; [|exact Ho3]; perm_solve|exact Hal|].
      intros hv4 w4 Ho4 Hh4 He4. eapply (Hfail k _ _ _ e); [by rewrite fmap_length|exact Hm|exact Ho4|exact Hh4|by rewrite He4|done].
  Qed.
  (** from a range of the list itself that does not reach its end *)
  Lemma runs_assign_nodes_self w al hdr a m b R hv hf (Q : _ -> W -> Prop) :
    heap_is w hv hf -> lists_own al ((hdr, a ++ m ++ b) :: R) hv -> w_err w = None -> b <> [] ->
    c_dflt cf = al \/ (a ++ m ++ b) = [] -> assigned al hdr R hf m.*2 Q ->
    runs (lst_assign_nodes cf (Lst al hdr) (hdx (m ++ b).*1 hdr) (hdx b.*1 hdr)) w Q.
  Proof.
    intros Hh Ho He Hb Hal [Hok Hfail]. unfold lst_assign_nodes. rbind. eapply runs_lst_new; [done..|].
    intros t hv1 _ Ho1 Hh1. rbind. eapply (runs_lst_swap cf _ al t [] hdr (a ++ m ++ b)); [done..|]. intros hv2 Ho2 Hh2.
    assert (Ho2' : lists_own al ((hdr, []) :: (t, a ++ m ++ b) :: R) hv2) by (eapply own_perm; [|exact Ho2]; perm_solve).
    rbind. eapply runs_heap_fuel; [exact Hh2|exact Ho2'|]. intros fuel Hfu. rewrite list_addrs_cons in Hfu. simpl in Hfu.
    rewrite app_length, fmap_length, !app_length in Hfu.
    assert (Hhd : forall z y, hdx (z ++ b).*1 hdr = hdx (z ++ b).*1 y).
    { intros z y. destruct z as [|[? ?] z]; [|done]. destruct b; done. }
    rewrite (Hhd m t). pose proof (Hhd [] t) as Hhd2. simpl in Hhd2. rewrite Hhd2.
    rbind. eapply (runs_push_nodes fuel _ al hdr [] t a m b R); [exact Hh2|exact Ho2'|done|lia|done|..].
    - intros m' hv3 w3 Hm Ho3 Hh3 He3.
      eapply (runs_drop_tmp0 _ al _ t (a ++ m ++ b) ((hdr, m') :: R)); [exact Hh3|eapply own_perm; [|exact Ho3]; perm_solve|exact Hal|].
      intros hv4 w4 Ho4 Hh4 He4. eapply Hok; [exact Hm|exact Ho4|exact Hh4|by rewrite He4].
    - intros k m' hv3 w3 e Hk Hm Ho3 Hh3 He3 Hne.
      eapply (runs_drop_tmp0 _ al _ t (a ++ m ++ b) ((hdr, m') :: R)); [exact Hh3|eapply own_perm; [|exact Ho3]; perm_solve|exact Hal|].
      intros hv4 w4 Ho4 Hh4 He4. eapply (Hfail k _ _ _ e); [by rewrite fmap_length|exact Hm|exact Ho4|exact Hh4|by rewrite He4|done].
  Qed.

  Lemma runs_lst_copy w al hdr xs h2 ys R hv hf al2 (Q : _ -> W -> Prop) :
    heap_is w hv hf -> lists_own al ((hdr, xs) :: (h2, ys) :: R) hv -> w_err w = None ->
    c_dflt cf = al \/ xs = [] -> assigned al hdr ((h2, ys) :: R) hf ys.*2 Q ->
    runs (lst_copy cf (Lst al hdr) (Lst al2 h2)) w Q.
  Proof.
    intros Hh Ho He Hal HQ. assert (Ho2 : lists_own al ((h2, ys) :: (hdr, xs) :: R) hv).
    { eapply own_perm; [|done]. apply perm_swap. }
    unfold lst_copy. rbind. eapply runs_begin; [done|exact Ho2|]. rbind. eapply runs_end; [done|exact Ho2|].
    pose proof (runs_assign_nodes w al hdr xs h2 [] ys [] R hv hf Q) as Hr. simpl in Hr. rewrite app_nil_r in Hr.
    by apply Hr.
  Qed.

  (** ** Comparison *)

  Fixpoint all2 (eqv : V -> V -> bool) (l r : list V) : bool :=
    match l, r with
    | [], [] => true
    | x :: l, y :: r => eqv x y && all2 eqv l r
    | _, _ => false
    end.

  Lemma runs_leq_loop fuel eqv w al h1 l r h2 l2 r2 R1 R2 hv hf (Q : _ -> W -> Prop) :
    heap_is w hv hf -> lists_own al ((h1, l ++ r) :: R1) hv -> lists_own al ((h2, l2 ++ r2) :: R2) hv ->
    length r < fuel -> length r2 = length r ->
    Q (all2 eqv r.*2 r2.*2) w -> runs (leq_loop cf fuel eqv (hdx r.*1 h1) h1 (hdx r2.*1 h2)) w Q.
  Proof.
    intros Hh. revert l r l2 r2 Q. induction fuel as [|fuel IH]; intros l r l2 r2 Q Ho1 Ho2 Hf Hl HQ; [lia|]. simpl.
    rbind. eapply runs_it_eq; [done|exact Ho1|apply hdx_in|apply hdr_in|].
    destruct r as [|[a v] r], r2 as [|[a2 v2] r2]; try done; simpl.
    - rewrite bool_decide_true by done. by apply runs_ret.
    - rewrite bool_decide_false by (exact (own_hdr_ne al h1 l a v r R1 hv Ho1)).
      rbind. eapply runs_deref; [done|exact Ho1|]. rbind. eapply runs_deref; [done|exact Ho2|].
      simpl in HQ. destruct (eqv v v2); [|by apply runs_ret].
      rbind. eapply runs_it_inc; [done|exact Ho1|]. rbind. eapply runs_it_inc; [done|exact Ho2|].
      eapply (IH (l ++ [(a, v)]) r (l2 ++ [(a2, v2)]) r2); [by rewrite <-(assoc_L (++))|by rewrite <-(assoc_L (++))|simpl in *; lia..|done].
  Qed.
  Lemma all2_length eqv l r : length l <> length r -> all2 eqv l r = false.
  Proof.
    revert r. induction l as [|x l IH]; intros [|y r] Hl; simpl in *; try done.
    rewrite IH by lia. by rewrite andb_false_r.
  Qed.
  Lemma runs_lst_equal eqv w al h1 x1 R1 h2 x2 R2 hv hf al1 al2 (Q : _ -> W -> Prop) :
    heap_is w hv hf -> lists_own al ((h1, x1) :: R1) hv -> lists_own al ((h2, x2) :: R2) hv ->
    Q (all2 eqv x1.*2 x2.*2) w -> runs (lst_equal cf eqv (Lst al1 h1) (Lst al2 h2)) w Q.
  Proof.
    intros Hh Ho1 Ho2 HQ. unfold lst_equal.
    rbind. eapply runs_lst_size; [done|exact Ho1|]. rbind. eapply runs_lst_size; [done|exact Ho2|].
    destruct (decide (length x1 <> length x2)) as [Hne|He].
    - apply runs_ret. by rewrite all2_length in HQ by (by rewrite !fmap_length).
    - rbind. eapply runs_begin; [done|exact Ho1|]. rbind. eapply runs_end; [done|exact Ho1|].
      rbind. eapply runs_begin; [done|exact Ho2|]. rbind. eapply runs_heap_fuel; [done|exact Ho1|]. intros fuel Hfu.
      eapply (runs_leq_loop fuel eqv w al h1 [] x1 h2 [] x2); [done..|lia|lia|done].
  Qed.

  (** ** The exception-enabled flavour *)

  Lemma runs_with_local_err {A} (m : M (lcell V) A) w (Q : A * option error -> W -> Prop) :
    runs m (set_err None w) (fun a w' => Q (a, w_err w') (set_err (w_err w) w')) ->
    runs (with_local_err m) w Q.
  Proof.
    intros Hm. unfold with_local_err. rbind. apply runs_get_err. rbind. apply runs_put_err. rbind.
    eapply runs_mono; [exact Hm|]. intros a w' HQ. cbv beta in HQ. rbind. apply runs_get_err. rbind. apply runs_put_err.
    apply runs_ret. done.
  Qed.
  Lemma heap_is_set_err w e hv hf : heap_is w hv hf -> heap_is (set_err e w) hv hf.
  Proof. intros [? ?]. done. Qed.

  Lemma runs_hlst_copy_ctor w hdr xs R hv hf al2 (Q : _ -> W -> Prop) :
    let al := c_dflt cf in
    heap_is w hv hf -> lists_own al ((hdr, xs) :: R) hv ->
    (forall a ys hv' w', ys.*2 = xs.*2 -> lists_own al ((a, ys) :: (hdr, xs) :: R) hv' -> heap_is w' hv' hf ->
       w_err w' = w_err w -> Q (inl (Lst al a)) w') ->
    (forall e hv' w', node_error cf e -> lists_own al ((hdr, xs) :: R) hv' -> heap_is w' hv' hf ->
       w_err w' = w_err w -> Q (inr e) w') ->
    runs (hlst_copy_ctor cf (Lst al2 hdr)) w Q.
  Proof.
    intros al Hh Ho Hok Hfail. unfold hlst_copy_ctor. rbind. eapply runs_lst_new; [done..|]. intros a hv1 _ Ho1 Hh1.
    rbind. apply runs_with_local_err. eapply runs_lst_copy; [by apply heap_is_set_err|exact Ho1|done|by left|]. split.
    - intros ys hv' w' Hys Ho' Hh' He'. simpl. rewrite He'. apply runs_ret. eapply Hok; [done|done|by apply heap_is_set_err|done].
    - intros k ys hv' w' e Hk Hys Ho' Hh' He' Hne. simpl. rewrite He'. rbind.
      eapply (runs_drop_tmp _ al a ys); [by apply heap_is_set_err|exact Ho'|].
      intros hv2 w2 Ho2 Hh2 He2. apply runs_ret. by eapply Hfail.
  Qed.
  Lemma runs_hlst_copy_assign w h1 x1 h2 x2 R hv hf al2 (Q : _ -> W -> Prop) :
    let al := c_dflt cf in
    heap_is w hv hf -> lists_own al ((h1, x1) :: (h2, x2) :: R) hv ->
    (forall ys hv' w', ys.*2 = x2.*2 -> lists_own al ((h1, ys) :: (h2, x2) :: R) hv' -> heap_is w' hv' hf ->
       w_err w' = w_err w -> Q None w') ->
    (forall e hv' w', node_error cf e -> lists_own al ((h1, x1) :: (h2, x2) :: R) hv' -> heap_is w' hv' hf ->
       w_err w' = w_err w -> Q (Some e) w') ->
    runs (hlst_copy_assign cf (Lst al h1) (Lst al2 h2)) w Q.
  Proof.
    intros al Hh Ho Hok Hfail. unfold hlst_copy_assign. rbind.
    eapply (runs_hlst_copy_ctor w h2 x2 ((h1, x1) :: R)); [done|eapply own_perm; [|exact Ho]; apply perm_swap|..].
    - intros a ys hv' w' Hys Ho' Hh' He'. rbind.
      eapply (runs_lst_swap cf _ al h1 x1 a ys ((h2, x2) :: R)); [done|eapply own_perm; [|exact Ho']; perm_solve|].
      intros hv2 Ho2 Hh2. rbind. eapply (runs_drop_tmp _ al a x1 ((h1, ys) :: (h2, x2) :: R)); [exact Hh2|eapply own_perm; [|exact Ho2]; perm_solve|].
      intros hv3 w3 Ho3 Hh3 He3. apply runs_ret. eapply Hok; [done..|]. by rewrite He3.
    - intros e hv' w' Hne Ho' Hh' He'. apply runs_ret. eapply Hfail; [done|eapply own_perm; [|exact Ho']; apply perm_swap|done..].
  Qed.
  Lemma runs_hlst_copy_assign_self w h1 x1 R hv hf (Q : _ -> W -> Prop) :
    let al := c_dflt cf in
    heap_is w hv hf -> lists_own al ((h1, x1) :: R) hv ->
    (forall ys hv' w', ys.*2 = x1.*2 -> lists_own al ((h1, ys) :: R) hv' -> heap_is w' hv' hf ->
       w_err w' = w_err w -> Q None w') ->
    (forall e hv' w', node_error cf e -> lists_own al ((h1, x1) :: R) hv' -> heap_is w' hv' hf ->
       w_err w' = w_err w -> Q (Some e) w') ->
    runs (hlst_copy_assign cf (Lst al h1) (Lst al h1)) w Q.
  Proof.
    intros al Hh Ho Hok Hfail. unfold hlst_copy_assign. rbind.
    eapply (runs_hlst_copy_ctor w h1 x1 R); [done|exact Ho|..].
    - intros a ys hv' w' Hys Ho' Hh' He'. rbind.
      eapply (runs_lst_swap cf _ al h1 x1 a ys R); [done|eapply own_perm; [|exact Ho']; perm_solve|].
      intros hv2 Ho2 Hh2. rbind. eapply (runs_drop_tmp _ al a x1 ((h1, ys) :: R)); [exact Hh2|eapply own_perm; [|exact Ho2]; perm_solve|].
      intros hv3 w3 Ho3 Hh3 He3. apply runs_ret. eapply Hok; [done..|]. by rewrite He3.
    - intros e hv' w' Hne Ho' Hh' He'. apply runs_ret. by eapply Hfail.
  Qed.
  Lemma runs_hlst_push_back w al hdr xs R hv hf x v (Q : _ -> W -> Prop) :
    heap_is w hv hf -> lists_own al ((hdr, xs) :: R) hv -> arg_in ((hdr, xs) :: R) hf x v ->
    (forall a hv' w', lists_own al ((hdr, xs ++ [(a, v)]) :: R) hv' -> heap_is w' hv' hf ->
       w_err w' = w_err w -> Q None w') ->
    (forall e w', node_error cf e -> w_heap w' = w_heap w -> w_err w' = w_err w -> Q (Some e) w') ->
    runs (hlst_push_back cf (Lst al hdr) x) w Q.
  Proof.
    intros Hh Ho Hx Hok Hfail. unfold hlst_push_back. rbind. apply runs_with_local_err.
    eapply runs_push_back; [by apply heap_is_set_err|exact Ho|done|exact Hx|..].
    - intros a hv' w' _ Ho' Hh' He' _ _. apply runs_ret. simpl. rewrite He'. by eapply (Hok a hv').
    - intros w' e Hw' He' Hne _. apply runs_ret. simpl. rewrite He'. by apply Hfail.
  Qed.
End more.
