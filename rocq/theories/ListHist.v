(** * Histories of list operations: proofs *)
From Verif Require Export ListMore ListHistSpec.

#[global] Arguments exec_lop : simpl never.

Section hist.
  Context {V : Type} (cf : cfg V) (comp : V -> V -> bool).
  Notation H := (gmap addr (lcell V)).
  Notation W := (world (lcell V)).
  Notation L := (list (addr * list (addr * V))).
  Notation E := (addr * V)%type.
  Implicit Types hv hf : H.
  Implicit Types w : W.
  Implicit Types ls R : L.
  Implicit Types xss : list (list E).

  Definition vals (xss : list (list E)) : list (list V) := (fun xs => xs.*2) <$> xss.

  (** The row of lists with headers [hds] holds [xss]. *)
  Definition row (hds : list addr) xss hv : Prop :=
    length hds = length xss /\ lists_own (c_dflt cf) (zip hds xss) hv.
  Notation objs hds := (Lst (c_dflt cf) <$> hds).

  Lemma zip_insert {A B} (l : list A) (k : list B) i x y :
    l !! i = Some x -> zip l (<[ i := y ]> k) = if decide (i < length k) then <[ i := (x, y) ]> (zip l k) else zip l k.
  Proof.
    revert k i. induction l as [|a l IH]; intros [|b k] [|i] Hi; simpl in *; simplify_eq; try done.
    - rewrite IH by done. repeat case_decide; try lia; done.
  Qed.
  Lemma lookup_zip {A B} (l : list A) (k : list B) i x y :
    l !! i = Some x -> k !! i = Some y -> zip l k !! i = Some (x, y).
  Proof.
    revert k i. induction l as [|a l IH]; intros [|b k] [|i] Hx Hy; simpl in *; simplify_eq; try done. by apply IH.
  Qed.
  Lemma insert_perm {A} (l : list A) i x : l !! i = Some x -> forall y, <[ i := y ]> l ≡ₚ y :: delete i l.
  Proof.
    revert i. induction l as [|a l IH]; intros [|i] Hi y; simpl in *; simplify_eq; [done..|].
    rewrite (IH i Hi y). apply perm_swap.
  Qed.
  Lemma get1 (hds : list addr) xss i h x :
    hds !! i = Some h -> xss !! i = Some x ->
    exists R, zip hds xss ≡ₚ (h, x) :: R /\ forall y, zip hds (<[ i := y ]> xss) ≡ₚ (h, y) :: R.
  Proof.
    intros Hh Hx. pose proof (lookup_zip _ _ _ _ _ Hh Hx) as Hz. exists (delete i (zip hds xss)). split.
    - by apply delete_Permutation.
    - intros y. rewrite (zip_insert _ _ _ _ _ Hh), decide_True by (by eapply lookup_lt_Some).
      by eapply insert_perm.
  Qed.
  Lemma get2 (hds : list addr) xss i j h x h2 x2 :
    i <> j -> hds !! i = Some h -> xss !! i = Some x -> hds !! j = Some h2 -> xss !! j = Some x2 ->
    exists R, zip hds xss ≡ₚ (h, x) :: (h2, x2) :: R /\
      forall y z, zip hds (<[ i := y ]> (<[ j := z ]> xss)) ≡ₚ (h, y) :: (h2, z) :: R.
  Proof.
    intros Hne Hh Hx Hh2 Hx2. destruct (get1 _ _ _ _ _ Hh Hx) as (R & HR & HR').
    pose proof (lookup_zip _ _ _ _ _ Hh Hx) as Hz. pose proof (lookup_zip _ _ _ _ _ Hh2 Hx2) as Hz2.
    assert (Hd : exists R2, R ≡ₚ (h2, x2) :: R2).
    { assert (Hin : (h2, x2) ∈ R).
      { assert (HR2 : delete i (zip hds xss) ≡ₚ R).
        { apply (Permutation_cons_inv (a := (h, x))). rewrite <-HR. symmetry. by apply delete_Permutation. }
        rewrite <-HR2. apply elem_of_list_lookup. destruct (decide (j < i)).
        - exists j. by rewrite lookup_delete_lt.
        - exists (j - 1). rewrite lookup_delete_ge by lia. by replace (S (j - 1)) with j by lia. }
      apply elem_of_Permutation in Hin. done. }
    destruct Hd as [R2 HR2]. exists R2. split; [by rewrite HR, HR2|]. intros y z.
    rewrite (zip_insert _ _ _ _ _ Hh), decide_True.
    2: { rewrite insert_length. by eapply lookup_lt_Some. }
    rewrite (zip_insert _ _ _ _ _ Hh2), decide_True by (by eapply lookup_lt_Some).
    rewrite list_insert_commute by done.
    assert (Hz' : <[ i := (h, y) ]> (zip hds xss) !! j = Some (h2, x2)) by (by rewrite list_lookup_insert_ne).
    rewrite (insert_perm _ _ _ Hz'). pose proof (delete_Permutation _ _ _ Hz') as Hd.
    assert (Hi : <[ i := (h, y) ]> (zip hds xss) ≡ₚ (h, y) :: R).
    { rewrite (insert_perm _ _ _ Hz). apply perm_skip.
      apply (Permutation_cons_inv (a := (h, x))). rewrite <-HR. symmetry. by apply delete_Permutation. }
    rewrite perm_swap. apply perm_skip. apply (Permutation_cons_inv (a := (h2, x2))).
    rewrite <-Hd, Hi, HR2. apply perm_swap.
  Qed.

  Lemma row_lookup hds xss hv i h : row hds xss hv -> hds !! i = Some h -> exists x, xss !! i = Some x.
  Proof. intros [Hl _] Hi. apply lookup_lt_is_Some. rewrite <-Hl. by eapply lookup_lt_Some. Qed.
  Lemma row_none hds xss hv i : row hds xss hv -> hds !! i = None -> xss !! i = None.
  Proof. intros [Hl _] Hi. apply lookup_ge_None in Hi. apply lookup_ge_None. lia. Qed.

  Lemma vals_lookup xss i : vals xss !! i = (fun xs => xs.*2) <$> xss !! i.
  Proof. apply list_lookup_fmap. Qed.
  Lemma vals_insert xss i (y : list E) : vals (<[ i := y ]> xss) = <[ i := y.*2 ]> (vals xss).
  Proof. apply list_fmap_insert. Qed.
  Lemma upd_at i f (ls : list (list V)) x : ls !! i = Some x -> upd i f ls = <[ i := f x ]> ls.
  Proof.
    unfold upd. revert i. induction ls as [|l ls IH]; intros [|i] Hi; simpl in *; simplify_eq; [done..|].
    f_equal. by apply IH.
  Qed.
  Lemma upd_none i f (ls : list (list V)) : ls !! i = None -> upd i f ls = ls.
  Proof.
    unfold upd. revert i. induction ls as [|l ls IH]; intros [|i] Hi; simpl in *; simplify_eq; [done..|].
    f_equal. by apply IH.
  Qed.

  Lemma in_rows xss (p : E) : p ∈ concat xss <-> exists k xs, xss !! k = Some xs /\ p ∈ xs.
  Proof.
    rewrite elem_of_list_In, in_concat. split.
    - intros (xs & Hxs & Hp). apply elem_of_list_In, elem_of_list_lookup in Hxs as [k Hk]. exists k, xs.
      split; [done|by apply elem_of_list_In].
    - intros (k & xs & Hk & Hp). exists xs. split; apply elem_of_list_In; [|done]. by eapply elem_of_list_lookup_2.
  Qed.
  Lemma kept1 xss i x y (K : E -> Prop) :
    xss !! i = Some x -> (forall p, p ∈ x -> K p \/ p ∈ y) ->
    forall p, p ∈ concat xss -> K p \/ p ∈ concat (<[ i := y ]> xss).
  Proof.
    intros Hx Hk p (k & xs & Hxs & Hp)%in_rows. destruct (decide (k = i)) as [->|Hne].
    - simplify_eq. destruct (Hk p Hp) as [?|Hy]; [by left|right]. apply in_rows. exists i, y.
      split; [|done]. apply list_lookup_insert. by eapply lookup_lt_Some.
    - right. apply in_rows. exists k, xs. split; [|done]. by rewrite list_lookup_insert_ne.
  Qed.
  Lemma kept2 xss i j x x2 y z (K : E -> Prop) :
    i <> j -> xss !! i = Some x -> xss !! j = Some x2 ->
    (forall p, p ∈ x \/ p ∈ x2 -> K p \/ p ∈ y \/ p ∈ z) ->
    forall p, p ∈ concat xss -> K p \/ p ∈ concat (<[ i := y ]> (<[ j := z ]> xss)).
  Proof.
    intros Hij Hx Hx2 Hk p (k & xs & Hxs & Hp)%in_rows. rewrite in_rows.
    assert (Hli : i < length xss) by (by eapply lookup_lt_Some). assert (Hlj : j < length xss) by (by eapply lookup_lt_Some).
    assert (Hd : p ∈ y \/ p ∈ z -> exists k xs0, <[ i := y ]> (<[ j := z ]> xss) !! k = Some xs0 /\ p ∈ xs0).
    { intros [Hy|Hz]; [exists i, y|exists j, z]; split; try done.
      - apply list_lookup_insert. by rewrite insert_length.
      - rewrite list_lookup_insert_ne by done. by apply list_lookup_insert. }
    destruct (decide (k = i)) as [->|Hne]; [simplify_eq; destruct (Hk p); tauto|].
    destruct (decide (k = j)) as [->|Hne2]; [simplify_eq; destruct (Hk p); tauto|].
    right. exists k, xs. split; [|done]. by rewrite !list_lookup_insert_ne.
  Qed.

  (** ** Client helpers *)

  Lemma runs_step_iter i w al hdr l r R hv hf (Q : _ -> W -> Prop) :
    heap_is w hv hf -> lists_own al ((hdr, l ++ r) :: R) hv ->
    Q (hdx (drop i r).*1 hdr) w -> runs (step_iter cf hdr (hdx r.*1 hdr) i) w Q.
  Proof.
    intros Hh. revert l r. induction i as [|i IH]; intros l r Ho HQ; simpl; [by apply runs_ret|].
    rbind. eapply runs_it_eq; [done|exact Ho|apply hdx_in|apply hdr_in|].
    destruct r as [|[a v] r]; simpl.
    - rewrite bool_decide_true by done. by apply runs_ret.
    - rewrite bool_decide_false by (exact (own_hdr_ne al hdr l a v r R hv Ho)).
      rbind. eapply runs_it_inc; [done|exact Ho|]. apply (IH (l ++ [(a, v)]) r); [by rewrite <-(assoc_L (++))|done].
  Qed.
  Lemma runs_iter_at i w al hdr xs R hv hf al0 (Q : _ -> W -> Prop) :
    heap_is w hv hf -> lists_own al ((hdr, xs) :: R) hv ->
    Q (hdx (drop i xs).*1 hdr) w -> runs (iter_at cf (Lst al0 hdr) i) w Q.
  Proof.
    intros Hh Ho HQ. unfold iter_at. rbind. eapply runs_begin; [done..|]. rbind. eapply runs_end; [done..|].
    by eapply (runs_step_iter i w al hdr [] xs).
  Qed.
  Lemma drop_at {A} (l : list A) q x : l !! q = Some x -> drop q l = x :: drop (S q) l.
  Proof. intros Hq. by erewrite drop_S. Qed.
  Lemma split_mid {A} (l : list A) q x : l !! q = Some x -> l = take q l ++ x :: drop (S q) l.
  Proof. intros Hq. by rewrite take_drop_middle. Qed.

  Lemma own_row_at al hds xss hv i h x :
    lists_own al (zip hds xss) hv -> hds !! i = Some h -> xss !! i = Some x ->
    exists R, zip hds xss ≡ₚ (h, x) :: R /\ lists_own al ((h, x) :: R) hv /\
      forall y hv', lists_own al ((h, y) :: R) hv' -> lists_own al (zip hds (<[ i := y ]> xss)) hv'.
  Proof.
    intros Ho Hh Hx. destruct (get1 _ _ _ _ _ Hh Hx) as (R & HR & HR'). exists R. split; [done|]. split.
    - eapply own_perm; [|exact Ho]. by rewrite HR.
    - intros y hv' Ho'. eapply own_perm; [|exact Ho']. by rewrite HR'.
  Qed.

  Lemma runs_get_arg hds xss w hv hf x (Q : _ -> W -> Prop) :
    row hds xss hv -> heap_is w hv hf ->
    (hval_of (vals xss) x = None -> Q None w) ->
    (forall a v, hval_of (vals xss) x = Some v -> arg_in (zip hds xss) hf a v -> Q (Some a) w) ->
    runs (get_arg cf (objs hds) x) w Q.
  Proof.
    intros Hr Hh Hn Hs. destruct x as [v|j q]; simpl; [apply runs_ret; by eapply Hs|].
    rewrite list_lookup_fmap. destruct (hds !! j) as [h|] eqn:Ej; simpl.
    - destruct (row_lookup _ _ _ _ _ Hr Ej) as [xs Hxs]. destruct Hr as [Hl Ho].
      destruct (own_row_at _ _ _ _ _ _ _ Ho Ej Hxs) as (R & HR & Ho1 & _).
      rbind. eapply runs_iter_at; [done|exact Ho1|]. rbind. eapply runs_end; [done|exact Ho1|].
      rbind. eapply runs_it_eq; [done|exact Ho1| |apply hdr_in|].
      { rewrite <-(take_drop q xs) at 2. apply hdx_in. }
      simpl in Hn, Hs. rewrite vals_lookup, Hxs in Hn, Hs. simpl in Hn, Hs. rewrite list_lookup_fmap in Hn, Hs.
      destruct (xs !! q) as [[a v]|] eqn:Eq; simpl in Hn, Hs.
      + rewrite (drop_at _ _ _ Eq). simpl. rewrite bool_decide_false.
        2: { rewrite (split_mid _ _ _ Eq) in Ho1. by eapply own_hdr_ne. }
        apply runs_ret. eapply Hs; [done|]. simpl. left. rewrite HR. simpl. apply elem_of_app. left.
        by eapply elem_of_list_lookup_2.
      + apply lookup_ge_None in Eq. rewrite drop_ge by done. simpl. rewrite bool_decide_true by done.
        apply runs_ret. by apply Hn.
    - apply runs_ret. apply Hn. simpl. by rewrite vals_lookup, (row_none _ _ _ _ Hr Ej).
  Qed.

  (** ** One call *)

  Definition lop_post op hds xss hf w' : Prop :=
    exists xss' hv', row hds xss' hv' /\ heap_is w' hv' hf /\
      lop_spec comp op (vals xss) (w_err w') (vals xss') /\
      forall p, p ∈ concat xss -> lop_kills op xss p \/ p ∈ concat xss'.

  Lemma post_same op hds xss hv hf w' :
    row hds xss hv -> heap_is w' hv hf -> lop_spec comp op (vals xss) (w_err w') (vals xss) ->
    lop_post op hds xss hf w'.
  Proof. intros Hr Hh Hs. exists xss, hv. split_and!; try done. intros p Hp. by right. Qed.

  Lemma post1 op hds xss hv hf w' i x y h R hv' :
    row hds xss hv -> hds !! i = Some h -> xss !! i = Some x ->
    zip hds xss ≡ₚ (h, x) :: R ->
    lists_own (c_dflt cf) ((h, y) :: R) hv' -> heap_is w' hv' hf ->
    lop_spec comp op (vals xss) (w_err w') (<[ i := y.*2 ]> (vals xss)) ->
    (forall p, p ∈ x -> lop_kills op xss p \/ p ∈ y) ->
    lop_post op hds xss hf w'.
  Proof.
    intros [Hl Ho] Hi Hx HR Ho' Hh Hs Hk. exists (<[ i := y ]> xss), hv'. split_and!.
    - split; [by rewrite insert_length|]. destruct (get1 _ _ _ _ _ Hi Hx) as (R2 & HR2 & HR').
      eapply own_perm; [|exact Ho']. rewrite HR'. apply perm_skip.
      apply (Permutation_cons_inv (a := (h, x))). by rewrite <-HR, <-HR2.
    - done.
    - by rewrite vals_insert.
    - by eapply kept1.
  Qed.

  Lemma vals_at xss i x : xss !! i = Some x -> vals xss !! i = Some x.*2.
  Proof. intros Hx. by rewrite vals_lookup, Hx. Qed.
  Lemma upd_vals xss i x f : xss !! i = Some x -> upd i f (vals xss) = <[ i := f x.*2 ]> (vals xss).
  Proof. intros Hx. apply upd_at. by apply vals_at. Qed.
  Lemma ins_pairs p (m xs : list E) : (take p xs ++ m ++ drop p xs).*2 = ins p m.*2 xs.*2.
  Proof. unfold ins. by rewrite !fmap_app, fmap_take, fmap_drop. Qed.
  Lemma del_pairs p n (xs : list E) : (take p xs ++ drop (p + n) xs).*2 = del p n xs.*2.
  Proof. unfold del. by rewrite !fmap_app, fmap_take, fmap_drop. Qed.
  Lemma in_ins p (m xs : list E) x : x ∈ xs -> x ∈ take p xs ++ m ++ drop p xs.
  Proof. rewrite <-(take_drop p xs) at 1. set_solver. Qed.

  Lemma with_lst_none (hds : list addr) i (k : lst_obj -> M (lcell V) unit) :
    hds !! i = None -> with_lst (objs hds) i k = ret tt.
  Proof. intros Hi. unfold with_lst. by rewrite list_lookup_fmap, Hi. Qed.
  Lemma with_lst_some (hds : list addr) i h (k : lst_obj -> M (lcell V) unit) :
    hds !! i = Some h -> with_lst (objs hds) i k = k (Lst (c_dflt cf) h).
  Proof. intros Hi. unfold with_lst. by rewrite list_lookup_fmap, Hi. Qed.

  Lemma runs_with_arg hds xss w hv hf x k (Q : _ -> W -> Prop) :
    row hds xss hv -> heap_is w hv hf ->
    (hval_of (vals xss) x = None -> Q tt w) ->
    (forall a v, hval_of (vals xss) x = Some v -> arg_in (zip hds xss) hf a v -> runs (k a) w Q) ->
    runs (with_arg cf (objs hds) x k) w Q.
  Proof.
    intros Hr Hh Hn Hs. unfold with_arg. rbind. eapply runs_get_arg; [done..| |].
    - intros Hx. apply runs_ret. by apply Hn.
    - intros a v Hv Ha. by eapply Hs.
  Qed.

  (** Change one list through a call that takes an element argument. *)
  Lemma runs_exec_elem op hds xss hv hf w i x k :
    row hds xss hv -> heap_is w hv hf -> w_err w = None ->
    (vals xss !! i = None -> lop_spec comp op (vals xss) None (vals xss)) ->
    (hval_of (vals xss) x = None -> lop_spec comp op (vals xss) None (vals xss)) ->
    (forall h xs R a v, hds !! i = Some h -> xss !! i = Some xs -> zip hds xss ≡ₚ (h, xs) :: R ->
       lists_own (c_dflt cf) ((h, xs) :: R) hv -> hval_of (vals xss) x = Some v -> arg_in ((h, xs) :: R) hf a v ->
       runs (k (Lst (c_dflt cf) h) a) w (fun _ => lop_post op hds xss hf)) ->
    runs (with_lst (objs hds) i (fun o => with_arg cf (objs hds) x (k o))) w (fun _ => lop_post op hds xss hf).
  Proof.
    intros Hr Hh He Hn1 Hn2 Hk. destruct (hds !! i) as [h|] eqn:Ei.
    - rewrite (with_lst_some _ _ _ _ Ei). eapply runs_with_arg; [done..| |].
      + intros Hx. eapply post_same; [done..|]. rewrite He. by apply Hn2.
      + intros a v Hv Ha. destruct (row_lookup _ _ _ _ _ Hr Ei) as [xs Hxs]. pose proof Hr as [Hl Ho].
        destruct (own_row_at _ _ _ _ _ _ _ Ho Ei Hxs) as (R & HR & Ho1 & _).
        eapply Hk; try done. by eapply arg_in_perm.
    - rewrite (with_lst_none _ _ _ Ei). apply runs_ret. eapply post_same; [done..|]. rewrite He. apply Hn1.
      by rewrite vals_lookup, (row_none _ _ _ _ Hr Ei).
  Qed.
  (** Change one list. *)
  Lemma runs_exec_one op hds xss hv hf w i k :
    row hds xss hv -> heap_is w hv hf -> w_err w = None ->
    (vals xss !! i = None -> lop_spec comp op (vals xss) None (vals xss)) ->
    (forall h xs R, hds !! i = Some h -> xss !! i = Some xs -> zip hds xss ≡ₚ (h, xs) :: R ->
       lists_own (c_dflt cf) ((h, xs) :: R) hv ->
       runs (k (Lst (c_dflt cf) h)) w (fun _ => lop_post op hds xss hf)) ->
    runs (with_lst (objs hds) i k) w (fun _ => lop_post op hds xss hf).
  Proof.
    intros Hr Hh He Hn1 Hk. destruct (hds !! i) as [h|] eqn:Ei.
    - rewrite (with_lst_some _ _ _ _ Ei).
      destruct (row_lookup _ _ _ _ _ Hr Ei) as [xs Hxs]. pose proof Hr as [Hl Ho].
      destruct (own_row_at _ _ _ _ _ _ _ Ho Ei Hxs) as (R & HR & Ho1 & _). by eapply Hk.
    - rewrite (with_lst_none _ _ _ Ei). apply runs_ret. eapply post_same; [done..|]. rewrite He. apply Hn1.
      by rewrite vals_lookup, (row_none _ _ _ _ Hr Ei).
  Qed.
  (** Change two lists, or one with itself. *)
  Lemma runs_exec_two op hds xss hv hf w i j k :
    row hds xss hv -> heap_is w hv hf -> w_err w = None ->
    (vals xss !! i = None \/ vals xss !! j = None -> lop_spec comp op (vals xss) None (vals xss)) ->
    (forall h xs R, i = j -> hds !! i = Some h -> xss !! i = Some xs -> zip hds xss ≡ₚ (h, xs) :: R ->
       lists_own (c_dflt cf) ((h, xs) :: R) hv ->
       runs (k (Lst (c_dflt cf) h) (Lst (c_dflt cf) h)) w (fun _ => lop_post op hds xss hf)) ->
    (forall h xs h2 xs2 R, i <> j -> hds !! i = Some h -> xss !! i = Some xs -> hds !! j = Some h2 -> xss !! j = Some xs2 ->
       lists_own (c_dflt cf) ((h, xs) :: (h2, xs2) :: R) hv ->
       (forall y z hv' w', lists_own (c_dflt cf) ((h, y) :: (h2, z) :: R) hv' -> heap_is w' hv' hf ->
          lop_spec comp op (vals xss) (w_err w') (<[ i := y.*2 ]> (<[ j := z.*2 ]> (vals xss))) ->
          (forall p, p ∈ xs \/ p ∈ xs2 -> lop_kills op xss p \/ p ∈ y \/ p ∈ z) -> lop_post op hds xss hf w') ->
       (forall y hv' w', lists_own (c_dflt cf) ((h, y) :: (h2, xs2) :: R) hv' -> heap_is w' hv' hf ->
          lop_spec comp op (vals xss) (w_err w') (<[ i := y.*2 ]> (vals xss)) ->
          (forall p, p ∈ xs -> lop_kills op xss p \/ p ∈ y) -> lop_post op hds xss hf w') ->
       runs (k (Lst (c_dflt cf) h) (Lst (c_dflt cf) h2)) w (fun _ => lop_post op hds xss hf)) ->
    runs (with_lst (objs hds) i (fun o => with_lst (objs hds) j (k o))) w (fun _ => lop_post op hds xss hf).
  Proof.
    intros Hr Hh He Hn Hk1 Hk2. destruct (hds !! i) as [h|] eqn:Ei; destruct (hds !! j) as [h2|] eqn:Ej.
    - rewrite (with_lst_some _ _ _ _ Ei), (with_lst_some _ _ _ _ Ej).
      destruct (row_lookup _ _ _ _ _ Hr Ei) as [xs Hxs]. destruct (row_lookup _ _ _ _ _ Hr Ej) as [xs2 Hxs2].
      pose proof Hr as [Hl Ho]. destruct (decide (i = j)) as [<-|Hne].
      + simplify_eq. destruct (own_row_at _ _ _ _ _ _ _ Ho Ei Hxs) as (R & HR & Ho1 & _). by eapply Hk1.
      + destruct (get2 _ _ _ _ _ _ _ _ Hne Ei Hxs Ej Hxs2) as (R & HR & HR'). eapply Hk2; try done.
        * eapply own_perm; [|exact Ho]. by rewrite HR.
        * intros y z hv' w' Ho' Hh' Hs Hk. exists (<[ i := y ]> (<[ j := z ]> xss)), hv'. split_and!.
          -- split; [by rewrite !insert_length|]. eapply own_perm; [|exact Ho']. by rewrite HR'.
          -- done.
          -- by rewrite !vals_insert.
          -- by eapply kept2.
        * intros y hv' w' Ho' Hh' Hs Hk. by eapply (post1 _ _ _ _ _ _ i xs y h ((h2, xs2) :: R)).
    - rewrite (with_lst_some _ _ _ _ Ei), (with_lst_none _ _ _ Ej). apply runs_ret.
      eapply post_same; [done..|]. rewrite He. apply Hn. right. by rewrite vals_lookup, (row_none _ _ _ _ Hr Ej).
    - rewrite (with_lst_none _ _ _ Ei). apply runs_ret.
      eapply post_same; [done..|]. rewrite He. apply Hn. left. by rewrite vals_lookup, (row_none _ _ _ _ Hr Ei).
    - rewrite (with_lst_none _ _ _ Ei). apply runs_ret.
      eapply post_same; [done..|]. rewrite He. apply Hn. left. by rewrite vals_lookup, (row_none _ _ _ _ Hr Ei).
  Qed.

  (** ** Plain lists *)

  Lemma ins_fmap p (m xs : list E) : (ins p m xs).*2 = ins p m.*2 xs.*2.
  Proof. apply ins_pairs. Qed.
  Lemma del_fmap p n (xs : list E) : (del p n xs).*2 = del p n xs.*2.
  Proof. apply del_pairs. Qed.
  Lemma del_ge {A} q n (l : list A) : length l <= q -> del q n l = l.
  Proof. intros Hq. unfold del. rewrite take_ge, drop_ge by lia. apply app_nil_r. Qed.
  Lemma ins_nil {A} p (l : list A) : ins p [] l = l.
  Proof. unfold ins. apply take_drop. Qed.
  Lemma mid_split {A} q n (l : list A) : drop q l = take n (drop q l) ++ drop (q + n) l.
  Proof. by rewrite <-(drop_drop l n q), take_drop. Qed.
  Lemma mid_full {A} q n (l : list A) : l = take q l ++ take n (drop q l) ++ drop (q + n) l.
  Proof. by rewrite <-mid_split, take_drop. Qed.
  Lemma before_split {A} p q (l : list A) : p <= q -> drop p l = drop p (take q l) ++ drop q l.
  Proof.
    intros Hpq. destruct (decide (p <= length l)).
    - rewrite <-(take_drop q l) at 1. rewrite drop_app_le; [done|]. rewrite take_length. lia.
    - rewrite !drop_ge; try done; rewrite ?take_length; lia.
  Qed.
  Lemma before_full {A} p q (l : list A) : p <= q -> l = take p l ++ drop p (take q l) ++ drop q l.
  Proof. intros Hpq. by rewrite <-before_split, take_drop. Qed.
  Lemma ins_del_front {A} p q n (m l : list A) :
    p <= q -> p <= length l -> ins p m (del q n l) = take p l ++ m ++ drop p (take q l) ++ drop (q + n) l.
  Proof.
    intros Hpq Hp. unfold ins, del. assert (p <= length (take q l)) by (rewrite take_length; lia).
    rewrite take_app_le, drop_app_le by done. rewrite take_take. by replace (p `min` q) with p by lia.
  Qed.
  Lemma del_ins_back {A} p q n (m l : list A) :
    q + n <= p -> q + n <= length l ->
    del q n (ins p m l) = take q l ++ drop (q + n) (take p l) ++ m ++ drop p l.
  Proof.
    intros Hpq Hp. unfold ins, del. assert (q + n <= length (take p l)) by (rewrite take_length; lia).
    rewrite take_app_le, drop_app_le by lia. rewrite take_take. by replace (q `min` p) with q by lia.
  Qed.
  Lemma hdx_app_l (x r : list E) h h' : x <> [] -> hdx (x ++ r).*1 h = hdx x.*1 h'.
  Proof. destruct x; done. Qed.

  Lemma rank_vals v (xs : list E) : (rank_of comp v xs).*2 = filter (fun y => same_rank comp v y = true) xs.*2.
  Proof.
    unfold rank_of. induction xs as [|[a y] xs IH]; [done|]. cbn [fmap list_fmap].
    rewrite !filter_cons. simpl. case_decide; simpl; [by f_equal|done].
  Qed.
  Lemma sim_vals (ys xs : list E) : srt comp ys -> sim comp ys xs -> stably_sorted comp xs.*2 ys.*2.
  Proof.
    intros Hs [Hp Hr]. split; [by apply fmap_Permutation|]. intros Hw. split; [by apply Hs|].
    intros v. rewrite <-!rank_vals. by rewrite Hr.
  Qed.

  Notation runs_op op hds xss hf w := (runs (exec_lop cf comp op (Lst (c_dflt cf) <$> hds)) w (fun _ => lop_post op hds xss hf)).

  Lemma exec_push_back hds xss hv hf w i x :
    row hds xss hv -> heap_is w hv hf -> w_err w = None -> runs_op (LoPushBack i x) hds xss hf w.
  Proof.
    intros Hr Hh He. unfold exec_lop. eapply runs_exec_elem; try done.
    - intros Hn. simpl. destruct (hval_of _ x); [|done]. by rewrite upd_none.
    - intros Hn. simpl. by rewrite Hn.
    - intros h xs R a v Hi Hx HR Ho Hv Ha. eapply runs_push_back; [done..| |].
      + intros b hv' w' _ Ho' Hh' He' _ _. eapply (post1 _ _ _ _ _ _ i xs); try done.
        * simpl. rewrite He', Hv, (upd_vals _ _ _ _ Hx). by rewrite fmap_app.
        * intros p Hp. right. set_solver.
      + intros w' e Hw' He' _ _. eapply post_same; [done|by eapply heap_is_eq|]. simpl. by rewrite He'.
  Qed.
  Lemma exec_push_front hds xss hv hf w i x :
    row hds xss hv -> heap_is w hv hf -> w_err w = None -> runs_op (LoPushFront i x) hds xss hf w.
  Proof.
    intros Hr Hh He. unfold exec_lop. eapply runs_exec_elem; try done.
    - intros Hn. simpl. destruct (hval_of _ x); [|done]. by rewrite upd_none.
    - intros Hn. simpl. by rewrite Hn.
    - intros h xs R a v Hi Hx HR Ho Hv Ha. eapply runs_push_front; [done..| |].
      + intros b hv' w' _ Ho' Hh' He' _ _. eapply (post1 _ _ _ _ _ _ i xs); try done.
        * simpl. rewrite He', Hv, (upd_vals _ _ _ _ Hx). done.
        * intros p Hp. right. set_solver.
      + intros w' e Hw' He' _ _. eapply post_same; [done|by eapply heap_is_eq|]. simpl. by rewrite He'.
  Qed.
  Lemma exec_insert hds xss hv hf w i q x :
    row hds xss hv -> heap_is w hv hf -> w_err w = None -> runs_op (LoInsert i q x) hds xss hf w.
  Proof.
    intros Hr Hh He. unfold exec_lop. eapply (runs_exec_elem _ _ _ _ _ _ _ _ (fun o a => let! it := iter_at cf o q in do! lst_insert cf o it a in ret tt)); try done.
    - intros Hn. simpl. destruct (hval_of _ x); [|done]. by rewrite upd_none.
    - intros Hn. simpl. by rewrite Hn.
    - intros h xs R a v Hi Hx HR Ho Hv Ha. rbind. eapply runs_iter_at; [done..|]. rbind.
      eapply (runs_insert cf w _ h (take q xs) (drop q xs)); rewrite ?take_drop; [done..| |].
      + intros b hv' w' _ Ho' Hh' He' _ _. apply runs_ret. eapply (post1 _ _ _ _ _ _ i xs); try done.
        * simpl. rewrite He', Hv, (upd_vals _ _ _ _ Hx). by rewrite (ins_pairs q [(b, v)]).
        * intros p Hp. right. by apply (in_ins q [(b, v)]).
      + intros w' e Hw' He' _ _. apply runs_ret. eapply post_same; [done|by eapply heap_is_eq|]. simpl. by rewrite He'.
  Qed.
  Lemma exec_insert_n hds xss hv hf w i q n x :
    row hds xss hv -> heap_is w hv hf -> w_err w = None -> runs_op (LoInsertN i q n x) hds xss hf w.
  Proof.
    intros Hr Hh He. unfold exec_lop. eapply (runs_exec_elem _ _ _ _ _ _ _ _ (fun o a => let! it := iter_at cf o q in lst_insert_n cf o it n a)); try done.
    - intros Hn. simpl. destruct (hval_of _ x); [|done]. by rewrite upd_none.
    - intros Hn. simpl. by rewrite Hn.
    - intros h xs R a v Hi Hx HR Ho Hv Ha. rbind. eapply runs_iter_at; [done..|].
      eapply (runs_insert_n cf n w _ h (take q xs) (drop q xs)); rewrite ?take_drop; [done..| |].
      + intros m hv' w' Hm Ho' Hh' He'. eapply (post1 _ _ _ _ _ _ i xs); try done.
        * simpl. rewrite He', Hv, (upd_vals _ _ _ _ Hx). by rewrite ins_pairs, Hm.
        * intros p Hp. right. by apply in_ins.
      + intros k m hv' w' e Hk Hm Ho' Hh' He' _. eapply (post1 _ _ _ _ _ _ i xs); try done.
        * simpl. rewrite He', Hv. exists k. split; [done|]. rewrite (upd_vals _ _ _ _ Hx). by rewrite ins_pairs, Hm.
        * intros p Hp. right. by apply in_ins.
  Qed.
  Lemma arg_in_vals ls hf (xs : list V) : Forall2 (arg_in ls hf) (map LAVal xs) xs.
  Proof. induction xs; constructor; done. Qed.
  Lemma exec_insert_vals hds xss hv hf w i q vs :
    row hds xss hv -> heap_is w hv hf -> w_err w = None -> runs_op (LoInsertVals i q vs) hds xss hf w.
  Proof.
    intros Hr Hh He. unfold exec_lop.
    eapply (runs_exec_one _ _ _ _ _ _ _ (fun o => let! it := iter_at cf o q in lst_insert_range cf o it (map LAVal vs))); try done.
    - intros Hn. simpl. by rewrite upd_none.
    - intros h xs R Hi Hx HR Ho. rbind. eapply runs_iter_at; [done..|].
      eapply (runs_insert_range cf (map LAVal vs) vs w _ h (take q xs) (drop q xs)); rewrite ?take_drop; [done..|apply arg_in_vals| |].
      + intros m hv' w' Hm Ho' Hh' He'. eapply (post1 _ _ _ _ _ _ i xs); try done.
        * simpl. rewrite He', (upd_vals _ _ _ _ Hx). by rewrite <-Hm, <-ins_pairs.
        * intros p Hp. right. by apply in_ins.
      + intros k m hv' w' e Hk Hm Ho' Hh' He' _. eapply (post1 _ _ _ _ _ _ i xs); try done.
        * simpl. rewrite He'. exists k. split; [done|]. by rewrite (upd_vals _ _ _ _ Hx), <-Hm, <-ins_pairs.
        * intros p Hp. right. by apply in_ins.
  Qed.
  Lemma exec_erase_range hds xss hv hf w i q n :
    row hds xss hv -> heap_is w hv hf -> w_err w = None -> runs_op (LoEraseRange i q n) hds xss hf w.
  Proof.
    intros Hr Hh He. unfold exec_lop. eapply runs_exec_one; try done.
    - intros Hn. simpl. by rewrite upd_none.
    - intros h xs R Hi Hx HR Ho. rbind. eapply runs_iter_at; [done..|]. rbind. eapply runs_iter_at; [done..|].
      rbind. rewrite (mid_split q n xs).
      eapply (runs_erase_range cf w _ h (take q xs) (take n (drop q xs)) (drop (q + n) xs)); [done|by rewrite <-mid_full|].
      intros hv' Ho' Hh'. apply runs_ret. eapply (post1 _ _ _ _ _ _ i xs); try done.
      + simpl. split; [done|]. by rewrite (upd_vals _ _ _ _ Hx), <-del_pairs.
      + intros p Hp. simpl. rewrite (mid_full q n xs), !elem_of_app in Hp. rewrite elem_of_app.
        destruct Hp as [?|[?|?]]; [by right; left|left; eauto|by right; right].
  Qed.
  Lemma exec_move hds xss hv hf w i j :
    row hds xss hv -> heap_is w hv hf -> w_err w = None -> runs_op (LoMove i j) hds xss hf w.
  Proof.
    intros Hr Hh He. unfold exec_lop. eapply runs_exec_two; try done.
    - intros [Hn|Hn]; simpl; rewrite Hn; [done|]. by destruct (vals xss !! i).
    - intros h xs R -> Hi Hx HR Ho. eapply runs_lst_move_assign_self; [done|exact Ho|]. intros hv' Ho' Hh'.
      eapply (post1 _ _ _ _ _ _ j xs []); try done.
      + simpl. split; [done|]. by rewrite (vals_at _ _ _ Hx), decide_True by done.
      + intros p Hp. left. simpl. eauto.
    - intros h xs h2 xs2 R Hne Hi Hx Hj Hx2 Ho Hpost _. eapply runs_lst_move_assign; [done|exact Ho|]. intros hv' Ho' Hh'.
      eapply Hpost; [done..| |].
      + simpl. split; [done|]. by rewrite (vals_at _ _ _ Hx), (vals_at _ _ _ Hx2), decide_False by done.
      + intros p [Hp|Hp]; [left; simpl; eauto|by right; left].
  Qed.
  Lemma exec_erase hds xss hv hf w i q :
    row hds xss hv -> heap_is w hv hf -> w_err w = None -> runs_op (LoErase i q) hds xss hf w.
  Proof.
    intros Hr Hh He. unfold exec_lop. eapply runs_exec_one; try done.
    - intros Hn. simpl. by rewrite upd_none.
    - intros h xs R Hi Hx HR Ho. rbind. eapply runs_iter_at; [done..|]. rbind. eapply runs_end; [done..|].
      rbind. eapply runs_it_eq; [done|exact Ho| |apply hdr_in|].
      { rewrite <-(take_drop q xs) at 2. apply hdx_in. }
      destruct (xs !! q) as [[a v]|] eqn:Eq.
      + rewrite (drop_at _ _ _ Eq). simpl. pose proof Ho as Ho2. rewrite (split_mid _ _ _ Eq) in Ho2.
        rewrite bool_decide_false by (by eapply own_hdr_ne). rbind. eapply runs_erase; [done|exact Ho2|].
        intros hv' Ho' _ Hh'. apply runs_ret. eapply (post1 _ _ _ _ _ _ i xs); try done.
        * simpl. split; [done|]. rewrite (upd_vals _ _ _ _ Hx). rewrite <-del_pairs. by rewrite Nat.add_1_r.
        * intros p Hp. simpl. rewrite Hx. simpl. rewrite Eq. rewrite (split_mid _ _ _ Eq) in Hp.
          rewrite elem_of_app, elem_of_cons in *. naive_solver.
      + apply lookup_ge_None in Eq. rewrite drop_ge by done. simpl. rewrite bool_decide_true by done.
        apply runs_ret. eapply post_same; [done..|]. simpl. split; [done|].
        rewrite (upd_vals _ _ _ _ Hx), del_ge by (by rewrite fmap_length). by rewrite list_insert_id by (by apply vals_at).
  Qed.
  Lemma exec_pop_back hds xss hv hf w i :
    row hds xss hv -> heap_is w hv hf -> w_err w = None -> runs_op (LoPopBack i) hds xss hf w.
  Proof.
    intros Hr Hh He. unfold exec_lop. eapply runs_exec_one; try done.
    - intros Hn. simpl. by rewrite upd_none.
    - intros h xs R Hi Hx HR Ho. rbind. eapply runs_lst_empty; [done..|].
      destruct xs as [|[a v] xs _] using rev_ind.
      + simpl. apply runs_ret. eapply post_same; [done..|]. simpl. split; [done|].
        rewrite (upd_vals _ _ _ _ Hx). simpl. by rewrite list_insert_id by (exact (vals_at _ _ _ Hx)).
      + rewrite bool_decide_false by (by destruct xs). eapply runs_pop_back; [done..|]. intros hv' Ho' Hh'.
        eapply (post1 _ _ _ _ _ _ i (xs ++ [(a, v)])); try done.
        * simpl. split; [done|]. rewrite (upd_vals _ _ _ _ Hx). f_equal.
          rewrite fmap_app, app_length. simpl. rewrite Nat.add_sub. by rewrite take_app.
        * intros p Hp. simpl. rewrite Hx. simpl. rewrite last_snoc. set_solver.
  Qed.
  Lemma exec_pop_front hds xss hv hf w i :
    row hds xss hv -> heap_is w hv hf -> w_err w = None -> runs_op (LoPopFront i) hds xss hf w.
  Proof.
    intros Hr Hh He. unfold exec_lop. eapply runs_exec_one; try done.
    - intros Hn. simpl. by rewrite upd_none.
    - intros h xs R Hi Hx HR Ho. rbind. eapply runs_lst_empty; [done..|].
      destruct xs as [|[a v] xs].
      + simpl. apply runs_ret. eapply post_same; [done..|]. simpl. split; [done|].
        rewrite (upd_vals _ _ _ _ Hx). simpl. by rewrite list_insert_id by (exact (vals_at _ _ _ Hx)).
      + rewrite bool_decide_false by done. eapply runs_pop_front; [done..|]. intros hv' Ho' Hh'.
        eapply (post1 _ _ _ _ _ _ i ((a, v) :: xs)); try done.
        * simpl. split; [done|]. rewrite (upd_vals _ _ _ _ Hx). done.
        * intros p Hp. simpl. rewrite Hx. simpl. set_solver.
  Qed.
  Lemma exec_clear hds xss hv hf w i :
    row hds xss hv -> heap_is w hv hf -> w_err w = None -> runs_op (LoClear i) hds xss hf w.
  Proof.
    intros Hr Hh He. unfold exec_lop. eapply runs_exec_one; try done.
    - intros Hn. simpl. by rewrite upd_none.
    - intros h xs R Hi Hx HR Ho. eapply runs_lst_clear; [done..|by left|]. intros hv' Ho' Hh'.
      eapply (post1 _ _ _ _ _ _ i xs); try done.
      + simpl. split; [done|]. by rewrite (upd_vals _ _ _ _ Hx).
      + intros p Hp. left. simpl. eauto.
  Qed.
  Lemma exec_assign hds xss hv hf w i n x :
    row hds xss hv -> heap_is w hv hf -> w_err w = None -> runs_op (LoAssign i n x) hds xss hf w.
  Proof.
    intros Hr Hh He. unfold exec_lop. eapply (runs_exec_elem _ _ _ _ _ _ _ _ (fun o a => lst_assign_n cf o n a)); try done.
    - intros Hn. simpl. destruct (hval_of _ x); [|done]. by rewrite upd_none.
    - intros Hn. simpl. by rewrite Hn.
    - intros h xs R a v Hi Hx HR Ho Hv Ha. eapply runs_assign_n; [done..|by left|]. split.
      + intros ys hv' w' Hm Ho' Hh' He'. eapply (post1 _ _ _ _ _ _ i xs); try done.
        * simpl. rewrite He', Hv, (upd_vals _ _ _ _ Hx). by rewrite Hm.
        * intros p Hp. left. simpl. eauto.
      + intros k ys hv' w' e Hk Hm Ho' Hh' He' _. rewrite replicate_length in Hk. eapply (post1 _ _ _ _ _ _ i xs); try done.
        * simpl. rewrite He', Hv. exists k. split; [done|]. rewrite (upd_vals _ _ _ _ Hx), Hm.
          rewrite take_replicate. f_equal. f_equal. lia.
        * intros p Hp. left. simpl. eauto.
  Qed.
  Lemma exec_assign_vals hds xss hv hf w i vs :
    row hds xss hv -> heap_is w hv hf -> w_err w = None -> runs_op (LoAssignVals i vs) hds xss hf w.
  Proof.
    intros Hr Hh He. unfold exec_lop. eapply (runs_exec_one _ _ _ _ _ _ _ (fun o => lst_assign_args cf o (map LAVal vs))); try done.
    - intros Hn. simpl. by rewrite upd_none.
    - intros h xs R Hi Hx HR Ho. eapply (runs_assign_args cf (map LAVal vs) vs); [done..|apply arg_in_vals|by left|]. split.
      + intros ys hv' w' Hm Ho' Hh' He'. eapply (post1 _ _ _ _ _ _ i xs); try done.
        * simpl. rewrite He', (upd_vals _ _ _ _ Hx). by rewrite Hm.
        * intros p Hp. left. simpl. eauto.
      + intros k ys hv' w' e Hk Hm Ho' Hh' He' _. eapply (post1 _ _ _ _ _ _ i xs); try done.
        * simpl. rewrite He'. exists k. split; [done|]. by rewrite (upd_vals _ _ _ _ Hx), Hm.
        * intros p Hp. left. simpl. eauto.
  Qed.
  Lemma exec_copy hds xss hv hf w i j :
    row hds xss hv -> heap_is w hv hf -> w_err w = None -> runs_op (LoCopy i j) hds xss hf w.
  Proof.
    intros Hr Hh He. unfold exec_lop. eapply (runs_exec_two _ _ _ _ _ _ _ _ (fun o o2 => if decide (i = j) then ret tt else lst_copy cf o o2)); try done.
    - intros [Hn|Hn]; simpl; [|by rewrite Hn]. destruct (vals xss !! j); [by rewrite upd_none|done].
    - intros h xs R -> Hi Hx HR Ho. rewrite decide_True by done. apply runs_ret. eapply post_same; [done..|].
      simpl. rewrite He. rewrite (vals_at _ _ _ Hx). rewrite (upd_vals _ _ _ _ Hx). by rewrite list_insert_id by (by apply vals_at).
    - intros h xs h2 xs2 R Hne Hi Hx Hj Hx2 Ho _ Hpost. rewrite decide_False by done.
      eapply runs_lst_copy; [done..|by left|]. split.
      + intros ys hv' w' Hm Ho' Hh' He'. eapply Hpost; [done..| |].
        * simpl. rewrite (vals_at _ _ _ Hx2), He', (upd_vals _ _ _ _ Hx). by rewrite Hm.
        * intros p Hp. left. simpl. eauto.
      + intros k ys hv' w' e Hk Hm Ho' Hh' He' _. eapply Hpost; [done..| |].
        * simpl. rewrite (vals_at _ _ _ Hx2), He'. exists k. split; [done|]. by rewrite (upd_vals _ _ _ _ Hx), Hm.
        * intros p Hp. left. simpl. eauto.
  Qed.
  Lemma exec_swap hds xss hv hf w i j :
    row hds xss hv -> heap_is w hv hf -> w_err w = None -> runs_op (LoSwap i j) hds xss hf w.
  Proof.
    intros Hr Hh He. unfold exec_lop. eapply runs_exec_two; try done.
    - intros [Hn|Hn]; simpl; rewrite Hn; [done|]. by destruct (vals xss !! i).
    - intros h xs R -> Hi Hx HR Ho. unfold lst_swap. simpl. eapply runs_swap_self; [done|exact Ho|]. intros hv' Ho' Hh'.
      eapply (post1 _ _ _ _ _ _ j xs xs); try done; [|by right].
      simpl. split; [done|]. rewrite (vals_at _ _ _ Hx). by rewrite list_insert_insert.
    - intros h xs h2 xs2 R Hne Hi Hx Hj Hx2 Ho Hpost _. eapply runs_lst_swap; [done|exact Ho|]. intros hv' Ho' Hh'.
      eapply Hpost; [done..| |].
      + simpl. split; [done|]. by rewrite (vals_at _ _ _ Hx), (vals_at _ _ _ Hx2).
      + intros p. tauto.
  Qed.
  Lemma exec_splice hds xss hv hf w i q j :
    row hds xss hv -> heap_is w hv hf -> w_err w = None -> runs_op (LoSplice i q j) hds xss hf w.
  Proof.
    intros Hr Hh He. unfold exec_lop. eapply (runs_exec_two _ _ _ _ _ _ _ _ (fun o o2 => if decide (i = j) then ret tt else
        let! it := iter_at cf o q in lst_splice cf o it o2)); try done.
    - intros [Hn|Hn]; simpl; rewrite Hn; [done|]. by destruct (vals xss !! i).
    - intros h xs R -> Hi Hx HR Ho. rewrite decide_True by done. apply runs_ret. eapply post_same; [done..|].
      simpl. rewrite (vals_at _ _ _ Hx). by rewrite decide_True.
    - intros h xs h2 xs2 R Hne Hi Hx Hj Hx2 Ho Hpost _. rewrite decide_False by done.
      rbind. eapply runs_iter_at; [done..|].
      eapply (runs_splice cf w (c_dflt cf) h (take q xs) (drop q xs) h2 xs2 R); [done|rewrite take_drop; exact Ho|]. intros hv' Ho' Hh'.
      eapply Hpost; [done..| |].
      + simpl. split; [done|]. rewrite (vals_at _ _ _ Hx), (vals_at _ _ _ Hx2), decide_False by done. by rewrite ins_pairs.
      + intros p [Hp|Hp]; right; left; [by apply in_ins|set_solver].
  Qed.
  Lemma exec_splice_one hds xss hv hf w i q j k :
    row hds xss hv -> heap_is w hv hf -> w_err w = None -> runs_op (LoSpliceOne i q j k) hds xss hf w.
  Proof.
    intros Hr Hh He. unfold exec_lop. eapply (runs_exec_two _ _ _ _ _ _ _ _ (fun o o2 =>
        let! pos := iter_at cf o q in
        let! it := iter_at cf o2 k in
        let! e := lst_end cf o2 in
        let! b := it_eq cf it e in
        if (b : bool) then ret tt else lst_splice_one cf pos it)); try done.
    - intros [Hn|Hn]; simpl; rewrite Hn; [done|]. by destruct (vals xss !! i).
    - intros h xs R -> Hi Hx HR Ho.
      rbind. eapply runs_iter_at; [done..|]. rbind. eapply runs_iter_at; [done..|]. rbind. eapply runs_end; [done..|].
      rbind. eapply runs_it_eq; [done|exact Ho| |apply hdr_in|].
      { rewrite <-(take_drop k xs) at 2. apply hdx_in. }
      destruct (xs !! k) as [[a v]|] eqn:Ek.
      2: { apply lookup_ge_None in Ek. rewrite (drop_ge xs k) by done. simpl. rewrite bool_decide_true by done.
        apply runs_ret. eapply post_same; [done..|]. simpl. rewrite (vals_at _ _ _ Hx). simpl.
        rewrite list_lookup_fmap, (proj2 (lookup_ge_None xs k)) by done. done. }
      assert (Hkl : k < length xs) by (by eapply lookup_lt_Some).
      rewrite (drop_at _ _ _ Ek). simpl. pose proof Ho as Ho2. rewrite (split_mid _ _ _ Ek) in Ho2.
      rewrite bool_decide_false by (by eapply own_hdr_ne).
      assert (Hm1 : take 1 (drop k xs) = [(a, v)]) by (by rewrite (drop_at _ _ _ Ek)).
      assert (Hspec : forall ys, ys = (if decide (k < q) then del k 1 (ins q [(a, v)] xs) else ins q [(a, v)] (del k 1 xs)) ->
                lop_spec comp (LoSpliceOne j q j k) (vals xss) None (<[ j := ys.*2 ]> (vals xss))).
      { intros ys ->. simpl. split; [done|]. rewrite (vals_at _ _ _ Hx). simpl. rewrite list_lookup_fmap, Ek. simpl.
        rewrite (decide_True (P := j = j)) by done. rewrite (upd_vals _ _ _ _ Hx). f_equal. case_decide.
        - by rewrite del_fmap, ins_fmap.
        - by rewrite ins_fmap, del_fmap. }
      assert (Hhere : (q = k \/ q = S k \/ (k < q /\ S k = length xs)) ->
                runs (lst_splice_one cf (hdx (drop q xs).*1 h) a) w (fun _ => lop_post (LoSpliceOne j q j k) hds xss hf)).
      { intros Hq. eapply runs_splice_one_here; [done|exact Ho2| |].
        - destruct Hq as [-> | [-> | [Hq1 Hq2]]].
          + left. by rewrite (drop_at _ _ _ Ek).
          + by right.
          + right. by rewrite !drop_ge by lia.
        - eapply (post1 _ _ _ _ _ _ j xs xs); try done; [|by right]. rewrite He. apply Hspec.
          destruct (decide (k < q)).
          + rewrite del_ins_back by lia. rewrite (split_mid _ _ _ Ek) at 1. f_equal.
            destruct Hq as [?|[-> | [Hq1 Hq2]]]; [lia| |].
            * rewrite Nat.add_1_r. rewrite (drop_ge (take (S k) xs)) by (rewrite take_length; lia). done.
            * rewrite Nat.add_1_r. rewrite (drop_ge (take q xs)) by (rewrite take_length; lia).
              rewrite !drop_ge by lia. done.
          + destruct Hq as [-> | [?|?]]; [|lia..]. rewrite ins_del_front by lia.
            rewrite (split_mid _ _ _ Ek) at 1. f_equal. rewrite (drop_ge (take k xs)) by (rewrite take_length; lia).
            by rewrite Nat.add_1_r. }
      destruct (decide (q = k \/ q = S k \/ (k < q /\ S k = length xs))) as [Hq|Hq]; [by apply Hhere|].
      destruct (decide (k < q)) as [Hkq|Hkq].
      + (* towards the back *)
        set (x := drop (S k) (take q xs)).
        assert (Hne : x <> []).
        { intros Hn. apply (f_equal length) in Hn. unfold x in Hn. rewrite drop_length, take_length in Hn. simpl in Hn. lia. }
        assert (Hxs : xs = take k xs ++ (a, v) :: x ++ drop q xs).
        { rewrite (split_mid _ _ _ Ek) at 1. f_equal. f_equal. apply before_split. lia. }
        eapply (runs_splice_one_back cf w _ h (take k xs) a v x (drop q xs)); [done|by rewrite <-Hxs|done|].
        intros hv' Ho' Hh'. eapply (post1 _ _ _ _ _ _ j xs); try done.
        * change (w_err (set_heap (hv' ∪ hf) w)) with (w_err w). rewrite He. apply Hspec.
          rewrite del_ins_back by lia. by rewrite Nat.add_1_r.
        * intros p Hp. right. rewrite Hxs in Hp. clear -Hp. set_solver.
      + set (x := drop q (take k xs)).
        assert (Hne : x <> []).
        { intros Hn. apply (f_equal length) in Hn. unfold x in Hn. rewrite drop_length, take_length in Hn. simpl in Hn. lia. }
        assert (Hxs : xs = take q xs ++ x ++ (a, v) :: drop (S k) xs).
        { rewrite <-(drop_at _ _ _ Ek). apply before_full. lia. }
        assert (Hpos : hdx (drop q xs).*1 h = hdx x.*1 h).
        { rewrite (before_split q k) by lia. by apply hdx_app_l. }
        rewrite Hpos.
        eapply (runs_splice_one_front cf w _ h (take q xs) x a v (drop (S k) xs)); [done|by rewrite <-Hxs|done|].
        intros hv' Ho' Hh'. eapply (post1 _ _ _ _ _ _ j xs); try done.
        * change (w_err (set_heap (hv' ∪ hf) w)) with (w_err w). rewrite He. apply Hspec.
          rewrite ins_del_front by lia. by rewrite Nat.add_1_r.
        * intros p Hp. right. rewrite Hxs in Hp. clear -Hp. set_solver.
    - intros h xs h2 xs2 R Hne Hi Hx Hj Hx2 Ho Hpost _.
      assert (Ho2 : lists_own (c_dflt cf) ((h2, xs2) :: (h, xs) :: R) hv) by (eapply own_perm; [|exact Ho]; apply perm_swap).
      rbind. eapply runs_iter_at; [done..|]. rbind. eapply runs_iter_at; [done|exact Ho2|]. rbind. eapply runs_end; [done|exact Ho2|].
      rbind. eapply runs_it_eq; [done|exact Ho2| |apply hdr_in|].
      { rewrite <-(take_drop k xs2) at 2. apply hdx_in. }
      destruct (xs2 !! k) as [[a v]|] eqn:Ek.
      2: { apply lookup_ge_None in Ek. rewrite (drop_ge xs2 k) by done. simpl. rewrite bool_decide_true by done.
        apply runs_ret. eapply post_same; [done..|]. simpl. rewrite (vals_at _ _ _ Hx), (vals_at _ _ _ Hx2). simpl.
        rewrite list_lookup_fmap, (proj2 (lookup_ge_None xs2 k)) by done. done. }
      rewrite (drop_at _ _ _ Ek). simpl. pose proof Ho2 as Ho3. rewrite (split_mid _ _ _ Ek) in Ho3.
      rewrite bool_decide_false by (by eapply own_hdr_ne).
      eapply (runs_splice_one_other cf w _ h (take q xs) (drop q xs) h2 (take k xs2) a v (drop (S k) xs2)).
      { done. }
      { rewrite take_drop. eapply own_perm; [|exact Ho3]. apply perm_swap. }
      intros hv' Ho' Hh'. eapply Hpost; [done..| |].
      + simpl. rewrite He. split; [done|]. rewrite (vals_at _ _ _ Hx), (vals_at _ _ _ Hx2). simpl.
        rewrite list_lookup_fmap, Ek. simpl. rewrite decide_False by done.
        rewrite (upd_vals _ _ _ _ Hx2).
        rewrite (upd_at _ _ _ xs.*2) by (rewrite list_lookup_insert_ne by done; by apply vals_at).
        rewrite (ins_pairs q [(a, v)]). rewrite <-del_pairs. by rewrite Nat.add_1_r.
      + intros p [Hp|Hp]; right; [left; by apply (in_ins q [(a, v)])|]. rewrite (split_mid _ _ _ Ek) in Hp. clear -Hp. set_solver.
  Qed.
  Lemma exec_splice_range hds xss hv hf w i q j k n :
    row hds xss hv -> heap_is w hv hf -> w_err w = None -> runs_op (LoSpliceRange i q j k n) hds xss hf w.
  Proof.
    intros Hr Hh He. unfold exec_lop. eapply (runs_exec_two _ _ _ _ _ _ _ _ (fun o o2 =>
        let! sz := lst_size cf o in
        if decide (i = j /\ k <= q `min` sz /\ q `min` sz <= k + n) then ret tt else
        let! pos := iter_at cf o q in
        let! first := iter_at cf o2 k in
        let! last := iter_at cf o2 (k + n) in
        lst_splice_range cf pos first last)); try done.
    - intros [Hn|Hn]; simpl; rewrite Hn; [done|]. by destruct (vals xss !! i).
    - intros h xs R -> Hi Hx HR Ho. rbind. eapply runs_lst_size; [done|exact Ho|].
      assert (Hspec : forall ys, ys = (if decide (q `min` length xs < k) then ins q (take n (drop k xs)) (del k n xs)
                 else if decide (k + n < q `min` length xs) then del k n (ins q (take n (drop k xs)) xs) else xs) ->
                lop_spec comp (LoSpliceRange j q j k n) (vals xss) None (<[ j := ys.*2 ]> (vals xss))).
      { intros ys ->. simpl. split; [done|]. rewrite (vals_at _ _ _ Hx). simpl.
        rewrite (decide_True (P := j = j)) by done. rewrite !fmap_length. repeat case_decide; rewrite ?(upd_vals _ _ _ _ Hx).
        - by rewrite ins_fmap, del_fmap, fmap_take, fmap_drop.
        - by rewrite del_fmap, ins_fmap, fmap_take, fmap_drop.
        - by rewrite list_insert_id by (by apply vals_at). }
      destruct (decide (j = j /\ k <= q `min` length xs /\ q `min` length xs <= k + n)) as [Hd|Hd].
      { apply runs_ret. eapply (post1 _ _ _ _ _ _ j xs xs); try done; [|by right]. rewrite He. apply Hspec.
        repeat case_decide; try done; lia. }
      rbind. eapply runs_iter_at; [done..|]. rbind. eapply runs_iter_at; [done..|]. rbind. eapply runs_iter_at; [done..|].
      destruct (decide (q `min` length xs < k)) as [Hqk|Hqk].
      + destruct (decide (length xs <= q)) as [Hlq|Hlq].
        { (* beyond the end: an empty range *)
          rewrite !(drop_ge xs) by lia. simpl. eapply runs_splice_range_nil; [done|exact Ho|apply hdr_in|].
          eapply (post1 _ _ _ _ _ _ j xs xs); try done; [|by right]. rewrite He. apply Hspec.
          rewrite (drop_ge xs) by lia. rewrite take_nil, ins_nil, del_ge by lia. done. }
        set (x := drop q (take k xs)). set (m := take n (drop k xs)).
        assert (Hne : x <> []).
        { intros Hn. apply (f_equal length) in Hn. unfold x in Hn. rewrite drop_length, take_length in Hn. simpl in Hn. lia. }
        assert (Hxs : xs = take q xs ++ x ++ m ++ drop (k + n) xs).
        { unfold m. rewrite <-mid_split. apply before_full. lia. }
        assert (Hpos : hdx (drop q xs).*1 h = hdx x.*1 h).
        { rewrite (before_split q k) by lia. by apply hdx_app_l. }
        rewrite Hpos, (mid_split k n xs). fold m.
        eapply (runs_splice_range_front cf w _ h (take q xs) x m); [done|by rewrite <-Hxs|done|].
        intros hv' Ho' Hh'. eapply (post1 _ _ _ _ _ _ j xs); try done.
        * change (w_err (set_heap (hv' ∪ hf) w)) with (w_err w). rewrite He. apply Hspec.
          rewrite ins_del_front by lia. done.
        * intros p Hp. right. rewrite Hxs in Hp. clear -Hp. set_solver.
      + assert (Hkn : k + n < q `min` length xs) by lia.
        destruct (decide (k + n < q `min` length xs)) as [_|]; [|done].
        set (x := drop (k + n) (take q xs)). set (m := take n (drop k xs)).
        assert (Hne : x <> []).
        { intros Hn. apply (f_equal length) in Hn. unfold x in Hn. rewrite drop_length, take_length in Hn. simpl in Hn. lia. }
        assert (Hxs : xs = take k xs ++ m ++ x ++ drop q xs).
        { rewrite (mid_full k n xs) at 1. fold m. f_equal. f_equal. apply before_split. lia. }
        assert (Hlast : hdx (drop (k + n) xs).*1 h = hdx x.*1 h).
        { rewrite (before_split (k + n) q) by lia. by apply hdx_app_l. }
        assert (Hfirst : hdx (drop k xs).*1 h = hdx (m ++ x).*1 h).
        { rewrite (mid_split k n xs). fold m. rewrite (before_split (k + n) q) by lia. fold x.
          rewrite (assoc_L (++)). apply hdx_app_l. by destruct m. }
        rewrite Hlast, Hfirst.
        eapply (runs_splice_range_back cf w _ h (take k xs) m x (drop q xs)); [done|by rewrite <-Hxs|done|].
        intros hv' Ho' Hh'. eapply (post1 _ _ _ _ _ _ j xs); try done.
        * change (w_err (set_heap (hv' ∪ hf) w)) with (w_err w). rewrite He. apply Hspec.
          rewrite del_ins_back by lia. done.
        * intros p Hp. right. rewrite Hxs in Hp. clear -Hp. set_solver.
    - intros h xs h2 xs2 R Hne Hi Hx Hj Hx2 Ho Hpost _. rbind. eapply runs_lst_size; [done|exact Ho|].
      rewrite decide_False by tauto.
      assert (Ho2 : lists_own (c_dflt cf) ((h2, xs2) :: (h, xs) :: R) hv) by (eapply own_perm; [|exact Ho]; apply perm_swap).
      rbind. eapply runs_iter_at; [done..|]. rbind. eapply runs_iter_at; [done|exact Ho2|].
      rbind. eapply runs_iter_at; [done|exact Ho2|].
      rewrite (mid_split k n xs2).
      eapply (runs_splice_range_other cf w _ h (take q xs) (drop q xs) h2 (take k xs2) (take n (drop k xs2)) (drop (k + n) xs2)).
      { done. }
      { rewrite take_drop, <-mid_full. done. }
      intros hv' Ho' Hh'. eapply Hpost; [done..| |].
      + simpl. rewrite He. split; [done|]. rewrite (vals_at _ _ _ Hx), (vals_at _ _ _ Hx2). simpl.
        rewrite decide_False by done.
        rewrite (upd_vals _ _ _ _ Hx2).
        rewrite (upd_at _ _ _ xs.*2) by (rewrite list_lookup_insert_ne by done; by apply vals_at).
        by rewrite ins_pairs, del_pairs, fmap_take, fmap_drop.
      + intros p [Hp|Hp]; right; [left; by apply in_ins|]. rewrite (mid_full k n xs2) in Hp. clear -Hp. set_solver.
  Qed.
  Lemma exec_merge hds xss hv hf w i j :
    row hds xss hv -> heap_is w hv hf -> w_err w = None -> runs_op (LoMerge i j) hds xss hf w.
  Proof.
    intros Hr Hh He. unfold exec_lop. eapply (runs_exec_two _ _ _ _ _ _ _ _ (fun o o2 =>
      if decide (i = j) then ret tt else lst_merge cf comp o o2)); try done.
    - intros [Hn|Hn]; simpl; rewrite Hn; [done|]. by destruct (vals xss !! i).
    - intros h xs R -> Hi Hx HR Ho. rewrite decide_True by done. apply runs_ret. eapply post_same; [done..|].
      simpl. rewrite (vals_at _ _ _ Hx). by rewrite decide_True.
    - intros h xs h2 xs2 R Hne Hi Hx Hj Hx2 Ho Hpost _. rewrite decide_False by done.
      eapply runs_lst_merge; [done|exact Ho|]. intros hv' Ho' Hh'. eapply Hpost; [done..| |].
      + simpl. rewrite He. split; [done|]. rewrite (vals_at _ _ _ Hx), (vals_at _ _ _ Hx2), decide_False by done.
        eexists. split; [done|]. pose proof (mergef_perm comp xs xs2) as Hp. apply (fmap_Permutation snd) in Hp.
        rewrite fmap_app in Hp. split; [done|]. intros Hw H1 H2.
        rewrite <-fmap_app. apply sim_vals; [apply mergef_sorted|apply mergef_stable]; by intros _.
      + intros p Hp. right. left. rewrite mergef_perm. by apply elem_of_app.
  Qed.
  Lemma exec_sort hds xss hv hf w i :
    row hds xss hv -> heap_is w hv hf -> w_err w = None -> runs_op (LoSort i) hds xss hf w.
  Proof.
    intros Hr Hh He. unfold exec_lop.
    eapply (runs_exec_one _ _ _ _ _ _ _ (fun o => let! sz := lst_size cf o in if decide (N.of_nat sz < 2^64)%N then lst_sort cf comp o else ret tt)); try done.
    - intros Hn. simpl. by rewrite Hn.
    - intros h xs R Hi Hx HR Ho. rbind. eapply runs_lst_size; [done|exact Ho|]. destruct (decide (N.of_nat (length xs) < 2 ^ 64)%N) as [Hlt|Hge].
      + eapply runs_lst_sort; [done|exact Ho|exact Hlt|]. intros ys Hs Hm hv' Ho' Hh'.
        eapply (post1 _ _ _ _ _ _ i xs ys); try done.
        * unfold lop_spec. split; [done|]. rewrite (vals_at _ _ _ Hx). rewrite fmap_length, decide_True by exact Hlt.
          eexists. split; [done|]. by apply sim_vals.
        * intros p Hp. right. by rewrite (proj1 Hm).
      + apply runs_ret. eapply post_same; [done..|]. unfold lop_spec. split; [done|]. rewrite (vals_at _ _ _ Hx).
        rewrite fmap_length, decide_False by exact Hge. done.
  Qed.

  Lemma runs_exec_lop op hds xss hv hf w :
    row hds xss hv -> heap_is w hv hf -> w_err w = None -> runs_op op hds xss hf w.
  Proof.
    intros Hr Hh He. destruct op.
    - by eapply exec_push_back.
    - by eapply exec_push_front.
    - by eapply exec_insert.
    - by eapply exec_insert_n.
    - by eapply exec_insert_vals.
    - by eapply exec_erase.
    - by eapply exec_erase_range.
    - by eapply exec_pop_back.
    - by eapply exec_pop_front.
    - by eapply exec_clear.
    - by eapply exec_assign.
    - by eapply exec_assign_vals.
    - by eapply exec_copy.
    - by eapply exec_move.
    - by eapply exec_swap.
    - by eapply exec_splice.
    - by eapply exec_splice_one.
    - by eapply exec_splice_range.
    - by eapply exec_merge.
    - by eapply exec_sort.
  Qed.

  Lemma runs_exec_lops ops hds xss hv hf w (Q : _ -> W -> Prop) :
    row hds xss hv -> heap_is w hv hf ->
    (forall es xss' hv' w', row hds xss' hv' -> heap_is w' hv' hf -> lops_spec comp ops (vals xss) es (vals xss') -> Q es w') ->
    runs (exec_lops cf comp ops (objs hds)) w Q.
  Proof.
    revert xss hv w Q. induction ops as [|op ops IH]; intros xss hv w Q Hr Hh HQ; simpl.
    - apply runs_ret. by eapply HQ.
    - rbind. apply runs_put_err. rbind. eapply runs_mono; [eapply (runs_exec_lop op); [done|by apply heap_is_set_err|done]|].
      intros [] w1 (xss1 & hv1 & Hr1 & Hh1 & Hs1 & _). rbind. apply runs_get_err. rbind.
      eapply IH; [done..|]. intros es xss2 hv2 w2 Hr2 Hh2 Hs2. apply runs_ret.
      eapply HQ; [done..|]. simpl. eauto.
  Qed.

  Lemma runs_state {A} (m : M (lcell V) A) w a :
    (forall Q : A -> W -> Prop, Q a w -> runs m w Q) -> m w = Done a w.
  Proof. intros Hm. destruct (Hm (fun a' w' => a' = a /\ w' = w)) as (a' & w' & HE & -> & ->); done. Qed.

  Lemma own_shows al h xs R hv hf w al0 :
    lists_own al ((h, xs) :: R) hv -> heap_is w hv hf -> lst_shows cf w (Lst al0 h) xs.*2.
  Proof.
    intros Ho Hh. split_and!.
    - apply runs_state. intros Q HQ. rewrite fmap_length in HQ. by eapply runs_lst_size.
    - apply runs_state. intros Q HQ. eapply runs_lst_empty; [done..|]. by destruct xs.
    - apply runs_state. intros Q HQ. by eapply runs_lst_walk.
    - apply runs_state. intros Q HQ. by eapply runs_lst_rwalk.
    - intros x l0 Hx. apply runs_state. intros Q HQ. destruct xs as [|[a v] xs]; simpl in Hx; [done|]. simplify_eq.
      by eapply runs_lst_front.
    - intros x l0 Hx. apply runs_state. intros Q HQ. destruct xs as [|[a v] xs _] using rev_ind.
      { by destruct l0. }
      rewrite fmap_app in Hx. simpl in Hx. apply app_inj_tail in Hx as [_ ->]. by eapply runs_lst_back.
  Qed.
  Lemma row_shows hds xss hv hf w i h xs :
    row hds xss hv -> heap_is w hv hf -> hds !! i = Some h -> xss !! i = Some xs -> lst_shows cf w (Lst (c_dflt cf) h) xs.*2.
  Proof.
    intros [Hl Ho] Hh Hi Hx. destruct (own_row_at _ _ _ _ _ _ _ Ho Hi Hx) as (R & _ & Ho1 & _).
    by eapply own_shows.
  Qed.
End hist.
