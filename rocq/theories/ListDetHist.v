(** * Histories of list operations, as a function of the failures of the environment *)
From Verif Require Export ListDet.

Section dethist.
  Context {V : Type} (cf : cfg V) (comp : V -> V -> bool).
  Notation H := (gmap addr (lcell V)).
  Notation W := (world (lcell V)).
  Notation L := (list (addr * list (addr * V))).
  Notation E := (addr * V)%type.
  Notation objs hds := (Lst (c_dflt cf) <$> hds).
  Notation row := (row cf).
  Implicit Types hv hf : H.
  Implicit Types w : W.
  Implicit Types R : L.
  Implicit Types xss : list (list E).
  Implicit Types ls : list (list V).

  (** ** The meaning of a call *)

  (** How many elements a call tries to add. *)
  Definition lop_adds (op : lop V) ls : nat :=
    match op with
    | LoPushBack i x | LoPushFront i x | LoInsert i _ x => match ls !! i, hval_of ls x with Some _, Some _ => 1 | _, _ => 0 end
    | LoInsertN i _ n x | LoAssign i n x => match ls !! i, hval_of ls x with Some _, Some _ => n | _, _ => 0 end
    | LoInsertVals i _ xs | LoAssignVals i xs => match ls !! i with Some _ => length xs | None => 0 end
    | LoCopy i j => match ls !! i, ls !! j with Some _, Some r => if decide (i = j) then 0 else length r | _, _ => 0 end
    | _ => 0
    end.
  Definition lop_quiet (op : lop V) : bool :=
    match op with
    | LoPushBack _ _ | LoPushFront _ _ | LoInsert _ _ _ | LoInsertN _ _ _ _ | LoAssign _ _ _
    | LoInsertVals _ _ _ | LoAssignVals _ _ | LoCopy _ _ | LoMerge _ _ => false
    | _ => true
    end.
  Definition tag (l : list V) : list E := (fun v => (1%positive, v)) <$> l.
  (** A call that adds [k] elements turns [ls] into [ls']. *)
  Definition lop_means (op : lop V) ls (k : nat) ls' : Prop :=
    match op with
    | LoPushBack i x => ls' = match hval_of ls x with Some v => upd i (fun l => l ++ replicate k v) ls | None => ls end
    | LoPushFront i x => ls' = match hval_of ls x with Some v => upd i (fun l => replicate k v ++ l) ls | None => ls end
    | LoInsert i p x | LoInsertN i p _ x => ls' = match hval_of ls x with Some v => upd i (ins p (replicate k v)) ls | None => ls end
    | LoAssign i _ x => ls' = match hval_of ls x with Some v => upd i (fun _ => replicate k v) ls | None => ls end
    | LoInsertVals i p xs => ls' = upd i (ins p (reverse (take k xs))) ls
    | LoAssignVals i xs => ls' = upd i (fun _ => take k xs) ls
    | LoCopy i j => ls' = match ls !! j with Some r => if decide (i = j) then ls else upd i (fun _ => take k r) ls | None => ls end
    | LoMerge i j => ls' = match ls !! i, ls !! j with
        | Some l, Some r => if decide (i = j) then ls else <[ i := (mergef comp (tag l) (tag r)).*2 ]> (<[ j := [] ]> ls)
        | _, _ => ls
        end
    | _ => lop_spec comp op ls None ls'
    end.
  Definition lop_det (op : lop V) ls (o : list event) (e : option error) ls' (o' : list event) : Prop :=
    exists k, n_nodes cf (lop_adds op ls) o = (k, e, o') /\ lop_means op ls k ls'.
  Fixpoint lops_det (ops : list (lop V)) ls o (es : list (option error)) ls' : Prop :=
    match ops, es with
    | [], [] => ls' = ls
    | op :: ops, e :: es => exists ls1 o1, lop_det op ls o e ls1 o1 /\ lops_det ops ls1 o1 es ls'
    | _, _ => False
    end.

  (** ** The meaning is unique, and does not depend on addresses *)

  Lemma stable_unique l l1 l2 : swo comp -> stably_sorted comp l l1 -> stably_sorted comp l l2 -> l1 = l2.
  Proof.
    intros Hw [Hp1 Hs1] [Hp2 Hs2]. specialize (Hs1 Hw) as [Hl1 Hf1]. specialize (Hs2 Hw) as [Hl2 Hf2].
    assert (Hp : l1 ≡ₚ l2) by (by rewrite Hp1, Hp2).
    assert (Hf : forall v, filter (fun y => same_rank comp v y = true) l1 = filter (fun y => same_rank comp v y = true) l2).
    { intros v. by rewrite Hf1, Hf2. }
    clear Hp1 Hp2 Hf1 Hf2 l. revert l2 Hp Hl2 Hf. induction l1 as [|x l1 IH]; intros l2 Hp Hl2 Hf.
    - by apply Permutation_nil_l in Hp.
    - destruct l2 as [|y l2]; [by apply Permutation_nil_r in Hp|].
      apply lsorted_cons in Hl1 as [Hx Hl1]. apply lsorted_cons in Hl2 as [Hy Hl2].
      assert (Hxx : comp x x = false) by apply Hw.
      assert (Hxy : comp x y = false).
      { assert (Hin : x ∈ y :: l2) by (rewrite <-Hp; left). apply elem_of_cons in Hin as [->|Hin]; [done|by apply Hy]. }
      assert (Hyx : comp y x = false).
      { assert (Hin : y ∈ x :: l1) by (rewrite Hp; left). apply elem_of_cons in Hin as [->|Hin]; [done|by apply Hx]. }
      assert (x = y) as <-.
      { specialize (Hf x). rewrite !filter_cons in Hf. unfold same_rank in Hf. rewrite Hxx, Hxy, Hyx in Hf. simpl in Hf. congruence. }
      f_equal. apply IH; [done|by eapply Permutation_cons_inv|done|]. intros v. specialize (Hf v).
      rewrite !filter_cons in Hf. destruct (decide (same_rank comp v x = true)); congruence.
  Qed.

  Lemma lop_means_unique op ls k l1 l2 : (swo comp \/ forall i, op <> LoSort i) ->
    lop_means op ls k l1 -> lop_means op ls k l2 -> l1 = l2.
  Proof.
    intros Hs. destruct op; simpl; intros H1 H2; try congruence; try (destruct H1 as [_ H1], H2 as [_ H2]; congruence).
    all: destruct H1 as [_ H1], H2 as [_ H2].
    all: repeat match goal with H : context [match ?x with _ => _ end] |- _ => destruct x eqn:? end; try congruence.
    destruct H1 as (y1 & -> & Hy1), H2 as (y2 & -> & Hy2). f_equal. destruct Hs as [Hs|Hs]; [by eapply stable_unique|by edestruct Hs].
  Qed.

  Lemma lops_det_unique ops ls o o' es es' l l' : (swo comp \/ forall i, LoSort i ∉ ops) -> same_failures o o' ->
    lops_det ops ls o es l -> lops_det ops ls o' es' l' -> es = es' /\ l = l'.
  Proof.
    intros Hw. revert ls o o' es es'. induction ops as [|op ops IH]; intros ls o o' [|e es] [|e' es'] Hs; simpl; try done.
    - by intros -> ->.
    - intros (ls1 & o1 & (k & Hn & Hm) & Hd) (ls2 & o2 & (k' & Hn' & Hm') & Hd').
      destruct (n_nodes_same cf (lop_adds op ls) _ _ Hs) as [H1 H2]. rewrite Hn, Hn' in H1, H2. simpl in *. simplify_eq.
      assert (ls1 = ls2) as <-.
      { eapply lop_means_unique; [|done..]. destruct Hw as [?|Hw]; [by left|right]. intros i ->. apply (Hw i). left. }
      destruct (IH) with ls1 o1 o2 es es' as [-> ->]; [|done..]. destruct Hw as [?|Hw]; [by left|right]. intros i Hi. apply (Hw i). by right.
  Qed.

  (** ** The calls have that meaning *)

  Lemma mergef_vals (x1 x2 y1 y2 : list E) : x1.*2 = y1.*2 -> x2.*2 = y2.*2 -> (mergef comp x1 x2).*2 = (mergef comp y1 y2).*2.
  Proof.
    revert y1 x2 y2. induction x1 as [|[a v] x1 IH1]; intros [|[b v'] y1] x2 y2 H1 H2; simpl in *; simplify_eq; [done|].
    revert y2 H2. induction x2 as [|[c u] x2 IH2]; intros [|[d u'] y2] H2; simpl in *; simplify_eq.
    - simpl. by f_equal.
    - rewrite !mergef_cons. simpl. destruct (comp u' v'); simpl; f_equal; [by apply IH2|]. apply IH1; [done|]. simpl. by f_equal.
  Qed.
  Lemma tag_vals l : (tag l).*2 = l.
  Proof. unfold tag. rewrite <-list_fmap_compose. by rewrite list_fmap_id. Qed.

  Definition det_post op hds xss hf w w' : Prop := exists xss' hv', row hds xss' hv' /\ heap_is w' hv' hf /\
    lop_det op (vals xss) (w_orc w) (w_err w') (vals xss') (w_orc w').

  Lemma det_same op hds xss hv hf w :
    row hds xss hv -> heap_is w hv hf -> w_err w = None -> lop_adds op (vals xss) = 0 -> lop_means op (vals xss) 0 (vals xss) ->
    det_post op hds xss hf w w.
  Proof. intros Hr Hh He Ha Hm. exists xss, hv. split; [done|]. split; [done|]. exists 0. by rewrite Ha, He. Qed.

  Lemma row_put hds xss hv i h x R : row hds xss hv -> hds !! i = Some h -> xss !! i = Some x -> zip hds xss ≡ₚ (h, x) :: R ->
    forall y hv', lists_own (c_dflt cf) ((h, y) :: R) hv' -> row hds (<[ i := y ]> xss) hv'.
  Proof.
    intros [Hl Ho] Hi Hx HR y hv' Ho'. split; [by rewrite insert_length|]. destruct (get1 _ _ _ _ _ Hi Hx) as (R2 & HR2 & HR').
    eapply own_perm; [|exact Ho']. rewrite HR'. apply perm_skip.
    apply (Permutation_cons_inv (a := (h, x))). by rewrite <-HR, <-HR2.
  Qed.

  Lemma at_one hds xss hv hf w i k (Q : unit -> W -> Prop) :
    row hds xss hv -> heap_is w hv hf -> (vals xss !! i = None -> Q tt w) ->
    (forall h xs R, hds !! i = Some h -> xss !! i = Some xs -> vals xss !! i = Some xs.*2 -> zip hds xss ≡ₚ (h, xs) :: R ->
       lists_own (c_dflt cf) ((h, xs) :: R) hv -> runs (k (Lst (c_dflt cf) h)) w Q) ->
    runs (with_lst (objs hds) i k) w Q.
  Proof.
    intros Hr Hh Hn1 Hk. destruct (hds !! i) as [h|] eqn:Ei.
    - rewrite (with_lst_some _ _ _ _ _ Ei).
      destruct (row_lookup _ _ _ _ _ _ Hr Ei) as [xs Hxs]. pose proof Hr as [Hl Ho].
      destruct (own_row_at _ _ _ _ _ _ _ Ho Ei Hxs) as (R & HR & Ho1 & _). eapply Hk; try done. by apply vals_at.
    - rewrite (with_lst_none _ _ _ _ Ei). apply runs_ret. apply Hn1.
      by rewrite vals_lookup, (row_none _ _ _ _ _ Hr Ei).
  Qed.
  Lemma at_elem hds xss hv hf w i x k (Q : unit -> W -> Prop) :
    row hds xss hv -> heap_is w hv hf -> (vals xss !! i = None -> Q tt w) -> (hval_of (vals xss) x = None -> Q tt w) ->
    (forall h xs R a v, hds !! i = Some h -> xss !! i = Some xs -> vals xss !! i = Some xs.*2 -> zip hds xss ≡ₚ (h, xs) :: R ->
       lists_own (c_dflt cf) ((h, xs) :: R) hv -> hval_of (vals xss) x = Some v -> arg_in ((h, xs) :: R) hf a v ->
       runs (k (Lst (c_dflt cf) h) a) w Q) ->
    runs (with_lst (objs hds) i (fun o => with_arg cf (objs hds) x (k o))) w Q.
  Proof.
    intros Hr Hh Hn1 Hn2 Hk. eapply at_one; [done..|]. intros h xs R Hi Hx Hv HR Ho.
    eapply runs_with_arg; [done..|]. intros a v Hav Ha. eapply Hk; try done. by eapply arg_in_perm.
  Qed.

  (** [added]: the call has replaced list number [i]. *)
  Lemma det_one op hds xss hv hf w w' i h x y R hv' k :
    row hds xss hv -> hds !! i = Some h -> xss !! i = Some x -> zip hds xss ≡ₚ (h, x) :: R ->
    lists_own (c_dflt cf) ((h, y) :: R) hv' -> heap_is w' hv' hf ->
    n_nodes cf (lop_adds op (vals xss)) (w_orc w) = (k, w_err w', w_orc w') ->
    lop_means op (vals xss) k (<[ i := y.*2 ]> (vals xss)) -> det_post op hds xss hf w w'.
  Proof.
    intros Hr Hi Hx HR Ho Hh Hn Hm. exists (<[ i := y ]> xss), hv'. split; [by eapply row_put|]. split; [done|].
    exists k. split; [done|]. by rewrite vals_insert.
  Qed.

  Lemma upd_none' i f ls : ls !! i = None -> ls = upd i f ls.
  Proof. intros Hn. by rewrite upd_none. Qed.

  Lemma n_nodes_1 o : n_nodes cf 1 o = match one_node cf o with (Some e, o) => (0, Some e, o) | (None, o) => (1, None, o) end.
  Proof. simpl. by destruct (one_node cf o) as [[e|] o']. Qed.

  Ltac none_i := intros Hn; eapply det_same; [done|done|done|simpl; by rewrite Hn|simpl; try (destruct (hval_of _ _); [|done]); by apply upd_none'].
  Ltac none_x := intros Hn; eapply det_same; [done|done|done|simpl; rewrite Hn; by destruct (_ !! _)|simpl; by rewrite Hn].

  Lemma det_push_back hds xss hv hf w i x : row hds xss hv -> heap_is w hv hf -> w_err w = None ->
    runs (exec_lop cf comp (LoPushBack i x) (objs hds)) w (fun _ => det_post (LoPushBack i x) hds xss hf w).
  Proof.
    intros Hr Hh He. unfold exec_lop. eapply at_elem; [done..|none_i|none_x|].
    intros h xs R a v Hi Hx Hvi HR Ho Hv Ha. eapply runs_mono; [by eapply exact_push_back|].
    simpl. intros _ w' [Hn H1]. destruct (w_err w') as [e|] eqn:E1.
    - eapply (det_one _ _ _ _ _ _ _ i h xs xs R hv 0); try done; [by eapply heap_is_eq| |].
      + rewrite E1. cbn [lop_adds]. by rewrite Hvi, Hv, n_nodes_1, <-Hn.
      + simpl. rewrite Hv, (upd_vals _ _ _ _ Hx). by rewrite app_nil_r.
    - destruct H1 as (b & hv' & Ho' & Hh'). eapply (det_one _ _ _ _ _ _ _ i h xs _ R hv' 1); try done.
      + rewrite E1. cbn [lop_adds]. by rewrite Hvi, Hv, n_nodes_1, <-Hn.
      + simpl. rewrite Hv, (upd_vals _ _ _ _ Hx). by rewrite fmap_app.
  Qed.
  Lemma det_push_front hds xss hv hf w i x : row hds xss hv -> heap_is w hv hf -> w_err w = None ->
    runs (exec_lop cf comp (LoPushFront i x) (objs hds)) w (fun _ => det_post (LoPushFront i x) hds xss hf w).
  Proof.
    intros Hr Hh He. unfold exec_lop. eapply at_elem; [done..|none_i|none_x|].
    intros h xs R a v Hi Hx Hvi HR Ho Hv Ha. eapply runs_mono; [by eapply exact_push_front|].
    simpl. intros _ w' [Hn H1]. destruct (w_err w') as [e|] eqn:E1.
    - eapply (det_one _ _ _ _ _ _ _ i h xs xs R hv 0); try done; [by eapply heap_is_eq| |].
      + rewrite E1. cbn [lop_adds]. by rewrite Hvi, Hv, n_nodes_1, <-Hn.
      + simpl. by rewrite Hv, (upd_vals _ _ _ _ Hx).
    - destruct H1 as (b & hv' & Ho' & Hh'). eapply (det_one _ _ _ _ _ _ _ i h xs _ R hv' 1); try done.
      + rewrite E1. cbn [lop_adds]. by rewrite Hvi, Hv, n_nodes_1, <-Hn.
      + simpl. by rewrite Hv, (upd_vals _ _ _ _ Hx).
  Qed.
  Lemma det_insert hds xss hv hf w i p x : row hds xss hv -> heap_is w hv hf -> w_err w = None ->
    runs (exec_lop cf comp (LoInsert i p x) (objs hds)) w (fun _ => det_post (LoInsert i p x) hds xss hf w).
  Proof.
    intros Hr Hh He. unfold exec_lop. eapply (at_elem _ _ _ _ _ _ _ (fun o a => let! it := iter_at cf o p in do! lst_insert cf o it a in ret tt)); [done..|none_i|none_x|].
    intros h xs R a v Hi Hx Hvi HR Ho Hv Ha. rbind. eapply runs_iter_at; [done..|]. rbind.
    eapply runs_mono; [eapply (exact_insert cf w _ h (take p xs) (drop p xs)); rewrite ?take_drop; done|].
    simpl. intros b w' [Hn H1]. apply runs_ret. destruct (w_err w') as [e|] eqn:E1.
    - eapply (det_one _ _ _ _ _ _ _ i h xs xs R hv 0); try done; [by eapply heap_is_eq| |].
      + rewrite E1. cbn [lop_adds]. by rewrite Hvi, Hv, n_nodes_1, <-Hn.
      + simpl. by rewrite Hv, (upd_vals _ _ _ _ Hx), ins_nil.
    - destruct H1 as (hv' & Ho' & Hh'). eapply (det_one _ _ _ _ _ _ _ i h xs _ R hv' 1); try done.
      + rewrite E1. cbn [lop_adds]. by rewrite Hvi, Hv, n_nodes_1, <-Hn.
      + simpl. rewrite Hv, (upd_vals _ _ _ _ Hx). by rewrite (ins_pairs p [(b, v)]).
  Qed.
  Lemma det_insert_n hds xss hv hf w i p n x : row hds xss hv -> heap_is w hv hf -> w_err w = None ->
    runs (exec_lop cf comp (LoInsertN i p n x) (objs hds)) w (fun _ => det_post (LoInsertN i p n x) hds xss hf w).
  Proof.
    intros Hr Hh He. unfold exec_lop. eapply (at_elem _ _ _ _ _ _ _ (fun o a => let! it := iter_at cf o p in lst_insert_n cf o it n a)); [done..|none_i|none_x|].
    intros h xs R a v Hi Hx Hvi HR Ho Hv Ha. rbind. eapply runs_iter_at; [done..|].
    eapply runs_mono; [eapply (exact_insert_n cf n w _ h (take p xs) (drop p xs)); rewrite ?take_drop; done|].
    simpl. intros _ w' (k & m & hv' & Hn & Hm & Ho' & Hh'). eapply (det_one _ _ _ _ _ _ _ i h xs _ R hv' k); try done.
    - cbn [lop_adds]. by rewrite Hvi, Hv.
    - simpl. rewrite Hv, (upd_vals _ _ _ _ Hx). by rewrite ins_pairs, Hm.
  Qed.
  Lemma det_insert_vals hds xss hv hf w i p vs : row hds xss hv -> heap_is w hv hf -> w_err w = None ->
    runs (exec_lop cf comp (LoInsertVals i p vs) (objs hds)) w (fun _ => det_post (LoInsertVals i p vs) hds xss hf w).
  Proof.
    intros Hr Hh He. unfold exec_lop. eapply (at_one _ _ _ _ _ _ (fun o => let! it := iter_at cf o p in lst_insert_range cf o it (map LAVal vs))); [done..|none_i|].
    intros h xs R Hi Hx Hvi HR Ho. rbind. eapply runs_iter_at; [done..|].
    eapply runs_mono; [eapply (exact_insert_range cf (map LAVal vs) vs w _ h (take p xs) (drop p xs)); rewrite ?take_drop; [done..|apply arg_in_vals]|].
    simpl. intros _ w' (k & m & hv' & Hn & Hm & Ho' & Hh'). eapply (det_one _ _ _ _ _ _ _ i h xs _ R hv' k); try done.
    - cbn [lop_adds]. by rewrite Hvi.
    - simpl. rewrite (upd_vals _ _ _ _ Hx). by rewrite ins_pairs, Hm.
  Qed.
  Lemma det_assign hds xss hv hf w i n x : row hds xss hv -> heap_is w hv hf -> w_err w = None ->
    runs (exec_lop cf comp (LoAssign i n x) (objs hds)) w (fun _ => det_post (LoAssign i n x) hds xss hf w).
  Proof.
    intros Hr Hh He. unfold exec_lop. eapply (at_elem _ _ _ _ _ _ _ (fun o a => lst_assign_n cf o n a)); [done..|none_i|none_x|].
    intros h xs R a v Hi Hx Hvi HR Ho Hv Ha.
    eapply runs_mono; [eapply exact_assign_n; [done..|by left]|].
    simpl. intros _ w' (k & m & hv' & Hn & Hm & Ho' & Hh'). eapply (det_one _ _ _ _ _ _ _ i h xs _ R hv' k); try done.
    - cbn [lop_adds]. by rewrite Hvi, Hv.
    - simpl. rewrite Hv, (upd_vals _ _ _ _ Hx). by rewrite Hm.
  Qed.
  Lemma det_assign_vals hds xss hv hf w i vs : row hds xss hv -> heap_is w hv hf -> w_err w = None ->
    runs (exec_lop cf comp (LoAssignVals i vs) (objs hds)) w (fun _ => det_post (LoAssignVals i vs) hds xss hf w).
  Proof.
    intros Hr Hh He. unfold exec_lop. eapply (at_one _ _ _ _ _ _ (fun o => lst_assign_args cf o (map LAVal vs))); [done..|none_i|].
    intros h xs R Hi Hx Hvi HR Ho.
    eapply runs_mono; [eapply (exact_assign_args cf (map LAVal vs) vs); [done..|apply arg_in_vals|by left]|].
    simpl. intros _ w' (k & m & hv' & Hn & Hm & Ho' & Hh'). eapply (det_one _ _ _ _ _ _ _ i h xs _ R hv' k); try done.
    - cbn [lop_adds]. by rewrite Hvi.
    - simpl. rewrite (upd_vals _ _ _ _ Hx). by rewrite Hm.
  Qed.
  Lemma det_copy hds xss hv hf w i j : row hds xss hv -> heap_is w hv hf -> w_err w = None ->
    runs (exec_lop cf comp (LoCopy i j) (objs hds)) w (fun _ => det_post (LoCopy i j) hds xss hf w).
  Proof.
    intros Hr Hh He. unfold exec_lop.
    eapply (at_one _ _ _ _ _ _ (fun o => with_lst (objs hds) j (fun o2 => if decide (i = j) then ret tt else lst_copy cf o o2))); [done..| |].
    { intros Hn. eapply det_same; [done..|simpl; by rewrite Hn|]. simpl. destruct (vals xss !! j); [|done]. case_decide; [done|by apply upd_none']. }
    intros h xs R Hi Hx Hvi HR Ho. eapply at_one; [done..| |].
    { intros Hn. eapply det_same; [done..|simpl; by rewrite Hn, Hvi|]. simpl. by rewrite Hn. }
    intros h2 xs2 R' Hj Hx2 Hvj HR' Ho'. destruct (decide (i = j)) as [<-|Hne].
    - apply runs_ret. eapply det_same; [done..|simpl; by rewrite Hvi, decide_True|]. simpl. by rewrite Hvi, decide_True.
    - clear R HR Ho R' HR' Ho'. destruct (get2 _ _ _ _ _ _ _ _ Hne Hi Hx Hj Hx2) as (R & HR & _). pose proof Hr as [Hl Ho].
      eapply runs_mono; [eapply exact_copy; [done|eapply own_perm; [|exact Ho]; by rewrite HR|done|by left]|].
      simpl. intros _ w' (k & m & hv' & Hn & Hm & Ho' & Hh'). eapply (det_one _ _ _ _ _ _ _ i h xs _ _ hv' k); try done.
      + cbn [lop_adds]. by rewrite Hvi, Hvj, decide_False, fmap_length.
      + simpl. rewrite Hvj, decide_False by done. rewrite (upd_vals _ _ _ _ Hx). by rewrite Hm.
  Qed.
  Lemma det_merge hds xss hv hf w i j : row hds xss hv -> heap_is w hv hf -> w_err w = None ->
    runs (exec_lop cf comp (LoMerge i j) (objs hds)) w (fun _ => det_post (LoMerge i j) hds xss hf w).
  Proof.
    intros Hr Hh He. unfold exec_lop.
    eapply (at_one _ _ _ _ _ _ (fun o => with_lst (objs hds) j (fun o2 => if decide (i = j) then ret tt else lst_merge cf comp o o2))); [done..| |].
    { intros Hn. eapply det_same; [done..|]. simpl. by rewrite Hn. }
    intros h xs R Hi Hx Hvi HR Ho. eapply at_one; [done..| |].
    { intros Hn. eapply det_same; [done..|]. simpl. by rewrite Hn, Hvi. }
    intros h2 xs2 R' Hj Hx2 Hvj HR' Ho'. destruct (decide (i = j)) as [<-|Hne].
    - apply runs_ret. eapply det_same; [done..|]. simpl. by rewrite Hvi, decide_True.
    - clear R HR Ho R' HR' Ho'. destruct (get2 _ _ _ _ _ _ _ _ Hne Hi Hx Hj Hx2) as (R & HR & HR'). pose proof Hr as [Hl Ho].
      eapply runs_lst_merge; [done|eapply own_perm; [|exact Ho]; by rewrite HR|]. intros hv' Ho' Hh'.
      exists (<[ i := mergef comp xs xs2 ]> (<[ j := [] ]> xss)), hv'. split_and!; [|done|].
      + split; [by rewrite !insert_length|]. eapply own_perm; [|exact Ho']. by rewrite HR'.
      + exists 0. simpl. rewrite He. split; [done|]. rewrite Hvi, Hvj, decide_False by done. rewrite !vals_insert. f_equal.
        apply mergef_vals; by rewrite tag_vals.
  Qed.

  Lemma quiet_silent op os : lop_quiet op = true -> silent (exec_lop cf comp op os).
  Proof. intros Hq. destruct op; try done; unfold exec_lop, with_lst; sh. Qed.

  Lemma det_exec op hds xss hv hf w : row hds xss hv -> heap_is w hv hf -> w_err w = None ->
    runs (exec_lop cf comp op (objs hds)) w (fun _ => det_post op hds xss hf w).
  Proof.
    intros Hr Hh He. destruct (lop_quiet op) eqn:Hq.
    - eapply runs_mono; [eapply runs_with_orc; [by apply quiet_silent|by eapply (runs_exec_lop cf comp op)]|].
      intros [] w' ((xss' & hv' & Hr' & Hh' & Hs & _) & He' & Ho'). exists xss', hv'. split; [done|]. split; [done|].
      exists 0. rewrite He in He'. rewrite He' in *. rewrite Ho'. destruct op; try done.
    - destruct op; try done.
      + by eapply det_push_back.
      + by eapply det_push_front.
      + by eapply det_insert.
      + by eapply det_insert_n.
      + by eapply det_insert_vals.
      + by eapply det_assign.
      + by eapply det_assign_vals.
      + by eapply det_copy.
      + by eapply det_merge.
  Qed.
  Lemma det_exec_lops ops hds xss hv hf w (Q : _ -> W -> Prop) :
    row hds xss hv -> heap_is w hv hf ->
    (forall es xss' hv' w', row hds xss' hv' -> heap_is w' hv' hf -> lops_det ops (vals xss) (w_orc w) es (vals xss') -> Q es w') ->
    runs (exec_lops cf comp ops (objs hds)) w Q.
  Proof.
    revert xss hv w Q. induction ops as [|op ops IH]; intros xss hv w Q Hr Hh HQ; simpl.
    - apply runs_ret. by eapply HQ.
    - rbind. apply runs_put_err. rbind. eapply runs_mono; [eapply (det_exec op); [done|by apply heap_is_set_err|done]|].
      intros [] w1 (xss1 & hv1 & Hr1 & Hh1 & Hs1). rbind. apply runs_get_err. rbind.
      eapply IH; [done..|]. intros es xss2 hv2 w2 Hr2 Hh2 Hs2. apply runs_ret.
      eapply HQ; [done..|]. simpl. eauto.
  Qed.
End dethist.
