(** * Proofs about vectors of vectors *)
From Verif Require Export NestSpec VecOps VecMore.

(** Heaps are compared address by address. *)
Ltac hs_at i :=
  repeat match goal with
  | H : forall j, ?m1 !! j = None \/ ?m2 !! j = None |- _ =>
      let H' := fresh in pose proof (H i) as H'; clear H
  | H : forall j, ?m1 !! j = ?m2 !! j |- _ =>
      let H' := fresh in pose proof (H i) as H'; clear H
  end.
Ltac hs_cases i :=
  repeat match goal with
  | H : context [<[?b := ?x]> ?m !! i] |- _ => destruct (decide (b = i)) as [->|]; [rewrite ?lookup_insert in *|rewrite ?(lookup_insert_ne m b i) in * by done]
  | |- context [<[?b := ?x]> ?m !! i] => destruct (decide (b = i)) as [->|]; [rewrite ?lookup_insert in *|rewrite ?(lookup_insert_ne m b i) in * by done]
  | H : context [delete ?b ?m !! i] |- _ => destruct (decide (b = i)) as [->|]; [rewrite ?lookup_delete in *|rewrite ?(lookup_delete_ne m b i) in * by done]
  | |- context [delete ?b ?m !! i] => destruct (decide (b = i)) as [->|]; [rewrite ?lookup_delete in *|rewrite ?(lookup_delete_ne m b i) in * by done]
  end.
Ltac hs_prune :=
  repeat match goal with
  | H : Some _ = None |- _ => discriminate H
  | H : None = Some _ |- _ => discriminate H
  | H : Some _ = None \/ _ |- _ => destruct H as [H|H]; [discriminate H|]
  | H : _ \/ Some _ = None |- _ => destruct H as [H|H]; [|discriminate H]
  | H : None = None \/ _ |- _ => clear H
  | H : _ \/ None = None |- _ => clear H
  | H : None = None |- _ => clear H
  end.
Ltac hsolve :=
  repeat match goal with
  | H : heap_is _ _ _ |- _ => destruct H as [? ?]
  | H : _ ##ₘ _ |- _ => rewrite map_disjoint_alt in H
  end;
  repeat match goal with
  | H : @eq (gmap _ _) ?m1 ?m2 |- _ => let H' := fresh in assert (H' : forall j, m1 !! j = m2 !! j) by (intros j; by rewrite H); clear H
  end;
  let i := fresh "i" in
  match goal with
  | |- @eq (gmap _ _) _ _ => apply map_eq; intros i
  | |- _ ##ₘ _ => apply map_disjoint_alt; intros i
  end;
  hs_at i;
  unfold singletonM, map_singleton in *;
  repeat (progress (rewrite ?lookup_union, ?lookup_empty in *; hs_cases i)); rewrite ?lookup_union, ?lookup_empty in *;
  repeat match goal with
  | H : context [?m !! i] |- _ => let z := fresh "z" in set (z := m !! i) in *; clearbody z
  | |- context [?m !! i] => let z := fresh "z" in set (z := m !! i) in *; clearbody z
  end;
  repeat (match goal with z : option _ |- _ => destruct z end; simpl in *; hs_prune);
  simpl in *; try (by destruct_or?; simplify_eq); try (by left); try (by right); try congruence; naive_solver.


#[global] Arguments g_destroy : simpl never.
#[global] Arguments g_uninitialised_copy : simpl never.
#[global] Arguments g_do_reserve : simpl never.
#[global] Arguments g_reserve : simpl never.
#[global] Arguments g_grow : simpl never.
#[global] Arguments g_vec_destroy : simpl never.
#[global] Arguments g_insert_value : simpl never.
#[global] Arguments g_push_back : simpl never.
#[global] Arguments g_copy : simpl never.
#[global] Arguments g_copy_ctor : simpl never.

Section allown.
  Context {V X C : Type} (Own : V -> X -> gmap addr C -> Prop).
  Implicit Types h : gmap addr C.

  Lemma all_own_length vs xs h : all_own Own vs xs h -> length vs = length xs.
  Proof. induction 1; simpl; lia. Qed.

  Lemma all_own_nil_inv xs h : all_own Own [] xs h -> xs = [] /\ h = ∅.
  Proof. by inversion 1. Qed.

  Lemma all_own_cons_inv v vs xs h : all_own Own (v :: vs) xs h ->
    exists x xs' h1 h2, xs = x :: xs' /\ Own v x h1 /\ all_own Own vs xs' h2 /\ h1 ##ₘ h2 /\ h = h1 ∪ h2.
  Proof. inversion 1; subst. naive_solver. Qed.

  Lemma all_own_app vs1 xs1 h1 vs2 xs2 h2 :
    all_own Own vs1 xs1 h1 -> all_own Own vs2 xs2 h2 -> h1 ##ₘ h2 ->
    all_own Own (vs1 ++ vs2) (xs1 ++ xs2) (h1 ∪ h2).
  Proof.
    intros H1 H2. induction H1 as [|v x h vs xs hs Hv Hvs IH Hd]; intros Hd2; simpl.
    - by rewrite (left_id_L ∅ (∪)).
    - rewrite <-(assoc_L (∪)). apply map_disjoint_union_l in Hd2 as [Hd2 Hd3].
      constructor; [done|by apply IH|]. by apply map_disjoint_union_r.
  Qed.

  Lemma all_own_snoc vs xs hs v x h :
    all_own Own vs xs hs -> Own v x h -> h ##ₘ hs -> all_own Own (vs ++ [v]) (xs ++ [x]) (h ∪ hs).
  Proof.
    intros Hs Hv Hd. rewrite map_union_comm by done. apply all_own_app; [done| |by symmetry].
    rewrite <-(right_id_L ∅ (∪) h). constructor; [done|constructor|apply map_disjoint_empty_r].
  Qed.

  Lemma all_own_app_inv vs1 vs2 xs h : all_own Own (vs1 ++ vs2) xs h ->
    exists xs1 xs2 h1 h2, xs = xs1 ++ xs2 /\ all_own Own vs1 xs1 h1 /\ all_own Own vs2 xs2 h2 /\
      h1 ##ₘ h2 /\ h = h1 ∪ h2.
  Proof.
    revert xs h. induction vs1 as [|v vs1 IH]; intros xs h H; simpl in *.
    - exists [], xs, ∅, h. rewrite (left_id_L ∅ (∪)). repeat split; try done; [constructor|apply map_disjoint_empty_l].
    - apply all_own_cons_inv in H as (x & xs' & ha & hb & -> & Hv & Hvs & Hd & ->).
      apply IH in Hvs as (xs1 & xs2 & h1 & h2 & -> & H1 & H2 & Hd12 & ->).
      apply map_disjoint_union_r in Hd as [Hd1 Hd2].
      exists (x :: xs1), xs2, (ha ∪ h1), h2. repeat split; try done.
      + by constructor.
      + by apply map_disjoint_union_l.
      + by rewrite (assoc_L (∪)).
  Qed.

  Lemma all_own_split vs xs h i : all_own Own vs xs h ->
    exists h1 h2, all_own Own (take i vs) (take i xs) h1 /\ all_own Own (drop i vs) (drop i xs) h2 /\
      h1 ##ₘ h2 /\ h = h1 ∪ h2.
  Proof.
    intros H. pose proof (all_own_length _ _ _ H) as Hlen.
    rewrite <-(take_drop i vs) in H.
    apply all_own_app_inv in H as (xs1 & xs2 & h1 & h2 & -> & H1 & H2 & Hd & ->).
    pose proof (all_own_length _ _ _ H1) as E1. pose proof (all_own_length _ _ _ H2) as E2.
    rewrite take_length, drop_length in *. rewrite app_length in Hlen.
    exists h1, h2. repeat split; try done.
    - destruct (decide (i <= length vs)).
      + rewrite take_app_alt by lia. done.
      + rewrite (take_ge (xs1 ++ xs2)) by (rewrite app_length; lia).
        destruct xs2; [by rewrite app_nil_r|simpl in *; lia].
    - destruct (decide (i <= length vs)).
      + rewrite drop_app_alt by lia. done.
      + rewrite (drop_ge (xs1 ++ xs2)) by (rewrite app_length; lia).
        destruct xs2; [done|simpl in *; lia].
  Qed.

  (** One member and the rest *)
  Lemma all_own_hole vs xs h k v : all_own Own vs xs h -> vs !! k = Some v ->
    exists x h1 h2, xs !! k = Some x /\ Own v x h1 /\ h1 ##ₘ h2 /\ h = h1 ∪ h2 /\
      forall v' x' h', Own v' x' h' -> h' ##ₘ h2 -> all_own Own (<[k:=v']> vs) (<[k:=x']> xs) (h' ∪ h2).
  Proof.
    intros H. revert k. induction H as [|v0 x0 h0 vs xs hs Hv Hvs IH Hd]; intros k Hk; [done|].
    destruct k as [|k]; simpl in *.
    - simplify_eq. exists x0, h0, hs. repeat split; try done. intros. by constructor.
    - apply IH in Hk as (x & h1 & h2 & Hx & Ho & Hd12 & -> & Hupd).
      apply map_disjoint_union_r in Hd as [Hd1 Hd2].
      exists x, h1, (h0 ∪ h2). repeat split; try done.
      + apply map_disjoint_union_r. split; [by symmetry|done].
      + rewrite !(assoc_L (∪)). f_equal. by apply map_union_comm.
      + intros v' x' h' Ho' Hd'. apply map_disjoint_union_r in Hd' as [Hd3 Hd4].
        rewrite (assoc_L (∪)), (map_union_comm h' h0), <-(assoc_L (∪)) by done.
        constructor; [done|by apply Hupd|]. apply map_disjoint_union_r. split; [by symmetry|done].
  Qed.

  Lemma all_own_focus vs xs h k v : all_own Own vs xs h -> vs !! k = Some v ->
    exists x h1 h2, xs !! k = Some x /\ Own v x h1 /\ h1 ##ₘ h2 /\ h = h1 ∪ h2 /\
      forall v' h', Own v' x h' -> h' ##ₘ h2 -> all_own Own (<[k:=v']> vs) xs (h' ∪ h2).
  Proof.
    intros H Hk. destruct (all_own_hole _ _ _ _ _ H Hk) as (x & h1 & h2 & Hx & Ho & Hd & Hh & Hupd).
    exists x, h1, h2. repeat split; try done. intros v' h' Ho' Hd'.
    rewrite <-(list_insert_id xs k x) by done. by apply Hupd.
  Qed.

  (** Two members and the rest *)
  Lemma all_own_hole2 vs xs h i j v o : all_own Own vs xs h -> i <> j -> vs !! i = Some v -> vs !! j = Some o ->
    exists x y h1 h2 h3, xs !! i = Some x /\ xs !! j = Some y /\ Own v x h1 /\ Own o y h2 /\
      h1 ##ₘ h2 ∪ h3 /\ h2 ##ₘ h3 /\ h = h1 ∪ (h2 ∪ h3) /\
      forall v' x' h1' o' y' h2', Own v' x' h1' -> Own o' y' h2' -> h1' ##ₘ h2' ∪ h3 -> h2' ##ₘ h3 ->
        all_own Own (<[i:=v']> (<[j:=o']> vs)) (<[i:=x']> (<[j:=y']> xs)) (h1' ∪ (h2' ∪ h3)).
  Proof.
    intros H. revert i j. induction H as [|v0 x0 h0 vs xs hs Hv Hvs IH Hd]; intros i j Hne Hi Hj; [done|].
    destruct i as [|i], j as [|j]; simpl in *; [done| | |].
    - simplify_eq. destruct (all_own_hole _ _ _ _ _ Hvs Hj) as (y & h2 & h3 & Hy & Ho & Hd23 & -> & Hupd).
      exists x0, y, h0, h2, h3. repeat split; try done. intros. constructor; [done|by apply Hupd|done].
    - simplify_eq. destruct (all_own_hole _ _ _ _ _ Hvs Hi) as (x & h1 & h3 & Hx & Ho & Hd23 & -> & Hupd).
      apply map_disjoint_union_r in Hd as [Hd1 Hd3].
      exists x, x0, h1, h0, h3. repeat split; try done.
      + apply map_disjoint_union_r. split; [by symmetry|done].
      + rewrite !(assoc_L (∪)). f_equal. by apply map_union_comm.
      + intros v' x' h1' o' y' h2' Ho1 Ho2 Hd4 Hd5. apply map_disjoint_union_r in Hd4 as [Hd4 Hd6].
        rewrite (assoc_L (∪)), (map_union_comm h1' h2'), <-(assoc_L (∪)) by done.
        constructor; [done|by apply Hupd|]. apply map_disjoint_union_r. split; [by symmetry|done].
    - destruct (IH i j ltac:(lia) Hi Hj) as (x & y & h1 & h2 & h3 & Hx & Hy & Ho1 & Ho2 & Hd1 & Hd2 & -> & Hupd).
      apply map_disjoint_union_r in Hd as [Hd3 Hd4]. apply map_disjoint_union_r in Hd4 as [Hd4 Hd5].
      apply map_disjoint_union_r in Hd1 as [Hd1 Hd1'].
      exists x, y, h1, h2, (h0 ∪ h3). repeat split; try done.
      + repeat (apply map_disjoint_union_r; split); try done. 
      + apply map_disjoint_union_r; split; try done.
      + rewrite (assoc_L (∪) h0), (map_union_comm h0 h1) by done. rewrite <-!(assoc_L (∪)). f_equal.
        rewrite !(assoc_L (∪)). f_equal. by apply map_union_comm.
      + intros v' x' h1' o' y' h2' Ho1' Ho2' Hd6 Hd7. apply map_disjoint_union_r in Hd6 as [Hd6 Hd8].
        apply map_disjoint_union_r in Hd8 as [Hd8 Hd9]. apply map_disjoint_union_r in Hd7 as [Hd7 Hd10].
        replace (h1' ∪ (h2' ∪ (h0 ∪ h3))) with (h0 ∪ (h1' ∪ (h2' ∪ h3))).
        * constructor; [done| |].
          -- apply Hupd; try done. apply map_disjoint_union_r; split; done.
          -- repeat (apply map_disjoint_union_r; split); try done.
        * rewrite (assoc_L (∪) h0), (map_union_comm h0 h1') by done. rewrite <-!(assoc_L (∪)). f_equal.
          rewrite !(assoc_L (∪)). f_equal. by apply map_union_comm.
  Qed.

  Lemma all_own_insert vs xs h i v x h1 : all_own Own vs xs h -> Own v x h1 -> h1 ##ₘ h ->
    all_own Own (take i vs ++ v :: drop i vs) (take i xs ++ x :: drop i xs) (h1 ∪ h).
  Proof.
    intros H Hv Hd. apply (all_own_split _ _ _ i) in H as (ha & hb & Ha & Hb & Hab & ->).
    apply map_disjoint_union_r in Hd as [Hd1 Hd2].
    rewrite (assoc_L (∪)), (map_union_comm h1 ha), <-(assoc_L (∪)) by done.
    apply all_own_app; [done|by constructor|]. apply map_disjoint_union_r. split; [by symmetry|done].
  Qed.
End allown.

Section heaps.
  Context {C : Type}.
  Implicit Types h hn hr hx hs hf : gmap addr C.

  Lemma h_uninit hn hr (hn2 : gmap addr C) b c :
    hn ##ₘ hr -> hn2 ##ₘ (hn ∪ hr) -> hr !! b = Some c -> forall c',
    hn2 ∪ <[b:=c']> (hn ∪ hr) = (hn2 ∪ hn) ∪ <[b:=c']> hr /\ hn2 ##ₘ hn /\ (hn2 ∪ hn) ##ₘ <[b:=c']> hr.
  Proof. intros. repeat split; hsolve. Qed.
  Lemma h_ins hx hr b c c' : hx ##ₘ hr -> hr !! b = Some c ->
    <[b:=c']> (hx ∪ hr) = hx ∪ <[b:=c']> hr /\ hx ##ₘ <[b:=c']> hr.
  Proof. intros. split; hsolve. Qed.
End heaps.

Section generic.
  Context {V X : Type} (cf : cfg V) (Own : V -> X -> gmap addr (vblock V) -> Prop).
  Context (cons : ptr -> arg V -> M (vblock V) unit) (des : ptr -> M (vblock V) unit).
  Notation W := (world (vblock V)).
  Implicit Types w : W.
  Implicit Types h hn hr hx hs hf : gmap addr (vblock V).

  Definition bput (blk : vblock V) (o : nat) (v : V) : vblock V :=
    Block (b_alloc blk) (b_req blk) (b_room blk) (<[o:=v]> (b_live blk)).
  Definition bdel (blk : vblock V) (o : nat) : vblock V :=
    Block (b_alloc blk) (b_req blk) (b_room blk) (delete o (b_live blk)).

  (** Constructing an element at a raw slot makes an independent copy of what the
      argument stands for, or changes nothing and reports an error. *)
  Definition cons_ok : Prop :=
    forall w b o blk a v x hx (Q : unit -> W -> Prop),
      w_err w = None -> arg_val w a v -> Own v x hx -> hx ⊆ w_heap w -> hx !! b = None ->
      w_heap w !! b = Some blk -> o < b_room blk -> b_live blk !! o = None ->
      (forall w' v' hn, Own v' x hn -> hn ##ₘ w_heap w -> w_heap w' = hn ∪ <[b:=bput blk o v']> (w_heap w) ->
         w_err w' = None -> Q tt w') ->
      (forall w' e, w_heap w' = w_heap w -> w_err w' = Some e -> Q tt w') ->
      runs (cons (Ptr b o) a) w Q.

  (** Destroying an element frees what it owns and nothing else. *)
  Definition des_ok : Prop :=
    forall w b o blk v x hx hr (Q : unit -> W -> Prop),
      w_heap w = hx ∪ hr -> hx ##ₘ hr -> hr !! b = Some blk -> o < b_room blk -> b_live blk !! o = Some v ->
      Own v x hx ->
      (forall w', w_heap w' = <[b:=bdel blk o]> hr -> w_err w' = w_err w -> Q tt w') ->
      runs (des (Ptr b o)) w Q.

  Hypothesis (Hcons : cons_ok) (Hdes : des_ok).

  Lemma runs_g_destroy_loop fuel w b i al rq rm live vs xs hs hr (Q : _ -> W -> Prop) :
    w_heap w = hs ∪ hr -> hs ##ₘ hr -> hr !! b = Some (Block al rq rm live) ->
    i + length vs <= rm -> (forall k v, vs !! k = Some v -> live !! (i + k) = Some v) ->
    all_own Own vs xs hs -> length vs < fuel ->
    (forall w' live', (forall k, live' !! k = if decide (i <= k < i + length vs) then None else live !! k) ->
       w_heap w' = <[b:=Block al rq rm live']> hr -> w_err w' = w_err w -> Q tt w') ->
    runs (g_destroy_loop des fuel (Ptr b i) (Ptr b (i + length vs))) w Q.
  Proof.
    revert w i live vs xs hs hr Q. induction fuel as [|fuel IH];
      intros w i live vs xs hs hr Q Hw Hd Hb Hrm Hlive Hown Hfuel HQ; [lia|]. simpl.
    destruct vs as [|v vs].
    - apply all_own_nil_inv in Hown as [-> ->]. simpl in *. rewrite Nat.add_0_r, decide_True by done.
      apply runs_ret. apply (HQ w live).
      + intros k. rewrite decide_False by lia. done.
      + rewrite Hw, (left_id_L ∅ (∪)). by rewrite insert_id.
      + done.
    - simpl in *. rewrite decide_False by (intros ?; simplify_eq; lia).
      apply all_own_cons_inv in Hown as (x & xs' & h1 & h2 & -> & Hv & Hvs & Hd12 & ->).
      apply map_disjoint_union_l in Hd as [Hd1 Hd2].
      rbind. eapply (Hdes w b i _ v x h1 (h2 ∪ hr)).
      + by rewrite Hw, (assoc_L (∪)).
      + by apply map_disjoint_union_r.
      + by apply lookup_union_Some_r.
      + simpl. lia.
      + simpl. rewrite <-(Nat.add_0_r i). by apply (Hlive 0).
      + done.
      + intros w1 Hw1 He1. destruct (h_ins h2 hr b _ (bdel (Block al rq rm live) i) Hd2 Hb) as [Heq Hd2'].
        rewrite Heq in Hw1.
        rbind. eapply runs_padd.
        { rewrite Hw1. apply lookup_union_Some_r; [done|]. apply lookup_insert. }
        { simpl. lia. }
        replace (i + S (length vs)) with ((i + 1) + length vs) by lia.
        eapply (IH w1 (i + 1) (delete i live) vs xs' h2 (<[b:=bdel (Block al rq rm live) i]> hr)); try done.
        * apply lookup_insert.
        * lia.
        * intros k v' Hk. rewrite lookup_delete_ne by lia. replace (i + 1 + k) with (i + S k) by lia. by apply Hlive.
        * lia.
        * intros w' live' Hl' Hw' He'. apply (HQ w' live').
          -- intros k. rewrite Hl'. destruct (decide (k = i)) as [->|].
             { rewrite lookup_delete. rewrite decide_False, decide_True by lia. done. }
             rewrite lookup_delete_ne by done.
             destruct (decide (i + 1 <= k < i + 1 + length vs)); [rewrite decide_True by lia|rewrite decide_False by lia]; done.
          -- by rewrite Hw', insert_insert.
          -- congruence.
  Qed.

  Lemma runs_g_destroy w b i j al rq rm live vs xs hs hr (Q : _ -> W -> Prop) :
    j = i + length vs -> w_heap w = hs ∪ hr -> hs ##ₘ hr -> hr !! b = Some (Block al rq rm live) ->
    j <= rm -> (forall k v, vs !! k = Some v -> live !! (i + k) = Some v) ->
    all_own Own vs xs hs ->
    (forall w' live', (forall k, live' !! k = if decide (i <= k < i + length vs) then None else live !! k) ->
       w_heap w' = <[b:=Block al rq rm live']> hr -> w_err w' = w_err w -> Q tt w') ->
    runs (g_destroy des (Ptr b i) (Ptr b j)) w Q.
  Proof. intros ->. intros. unfold g_destroy. eapply runs_g_destroy_loop; try done. simpl. lia. Qed.

  Lemma runs_g_destroy_all w b al rq rm vs xs hs hr (Q : _ -> W -> Prop) :
    w_heap w = hs ∪ hr -> hs ##ₘ hr -> hr !! b = Some (Block al rq rm (map_seq 0 vs)) ->
    length vs <= rm -> all_own Own vs xs hs ->
    (forall w', w_heap w' = <[b:=Block al rq rm ∅]> hr -> w_err w' = w_err w -> Q tt w') ->
    runs (g_destroy des (Ptr b 0) (Ptr b (length vs))) w Q.
  Proof.
    intros Hw Hd Hb Hrm Hown HQ. eapply runs_g_destroy; try done.
    - intros k v Hk. by rewrite lookup_map_seq_0.
    - intros w' live' Hl' Hw' He'. apply HQ; [|done]. rewrite Hw'. do 2 f_equal.
      apply map_eq. intros k. rewrite Hl', lookup_map_seq_0, lookup_empty.
      case_decide; [done|]. apply lookup_ge_None. lia.
  Qed.

  Lemma runs_g_destroy_null w (Q : _ -> W -> Prop) : Q tt w -> runs (g_destroy des Null Null) w Q.
  Proof. intros. unfold g_destroy. simpl. by apply runs_ret. Qed.

  Lemma runs_g_uninit_loop fuel w bs bd src al rq rm vs xs hs vd hn hr i (Q : _ -> W -> Prop) :
    bs <> bd -> w_err w = None -> w_heap w = hn ∪ hr -> hn ##ₘ hr ->
    hr !! bs = Some src -> length vs <= b_room src ->
    (forall k v, vs !! k = Some v -> b_live src !! k = Some v) ->
    all_own Own vs xs hs -> hs ⊆ hr -> hs !! bd = None ->
    hr !! bd = Some (Block al rq rm (map_seq 0 vd)) -> all_own Own vd (take i xs) hn ->
    i <= length vs -> length vs <= rm -> length vs - i < fuel ->
    (forall w' vd' hn' p, all_own Own vd' xs hn' -> hn' ##ₘ hr ->
       w_heap w' = hn' ∪ <[bd:=Block al rq rm (map_seq 0 vd')]> hr -> w_err w' = None -> Q p w') ->
    (forall w' p e, w_heap w' = <[bd:=Block al rq rm ∅]> hr -> w_err w' = Some e -> Q p w') ->
    runs (g_uninitialised_copy_loop cons des fuel (Ptr bs i) (Ptr bs (length vs)) (Ptr bd 0) (Ptr bd i)) w Q.
  Proof.
    intros Hne. revert w vd hn hr i Q. induction fuel as [|fuel IH];
      intros w vd hn hr i Q He Hw Hd Hbs Hroom Hsrc Hown Hsub Hsbd Hbd Hvd Hi Hrm Hfuel Hok Hfail; [lia|]. simpl.
    pose proof (all_own_length _ _ _ _ Hown) as Hlen. pose proof (all_own_length _ _ _ _ Hvd) as Hlend.
    rewrite take_length in Hlend.
    case_decide as Heq.
    - simplify_eq. apply runs_ret. rewrite take_ge in Hvd by lia. eapply Hok; try done.
      by rewrite insert_id.
    - assert (i < length vs) by (assert (i <> length vs) by congruence; lia).
      destruct (lookup_lt_is_Some_2 vs i) as [v Hv]; [done|].
      destruct (all_own_focus _ _ _ _ _ _ Hown Hv) as (x & h1 & h2 & Hx & Hox & Hd12 & Hhs & _).
      assert (h1 ⊆ hs) by (rewrite Hhs; apply map_union_subseteq_l).
      assert (hr ⊆ w_heap w) by (rewrite Hw; by apply map_union_subseteq_r).
      rbind. eapply (Hcons w bd i _ (ARef (Ptr bs i)) v x h1).
      + done.
      + simpl. unfold read, load_block, load, bind, get_heap.
        rewrite (lookup_weaken _ _ _ _ Hbs) by done. simpl. rewrite decide_True by lia. by rewrite (Hsrc _ _ Hv).
      + done.
      + by do 2 (etrans; [done|]).
      + by eapply lookup_weaken_None.
      + by eapply lookup_weaken.
      + simpl. lia.
      + simpl. rewrite lookup_map_seq_0. apply lookup_ge_None. lia.
      + intros w1 v' hn2 Hov' Hd2 Hw1 He1. rbind. apply runs_has_err. rewrite He1.
        rewrite Hw in Hd2. rewrite Hw in Hw1.
        destruct (h_uninit hn hr hn2 bd _ Hd Hd2 Hbd (bput (Block al rq rm (map_seq 0 vd)) i v')) as (E1 & E2 & E3).
        rewrite E1 in Hw1.
        rbind. eapply runs_padd.
        { rewrite Hw1. apply lookup_union_Some_r; [done|]. by rewrite lookup_insert_ne. }
        { lia. }
        rbind. eapply runs_padd.
        { rewrite Hw1. apply lookup_union_Some_r; [done|]. by rewrite lookup_insert. }
        { simpl. lia. }
        replace (i + 1) with (S i) by lia.
        eapply (IH w1 (vd ++ [v']) (hn2 ∪ hn) (<[bd:=bput (Block al rq rm (map_seq 0 vd)) i v']> hr)); try done.
        * by rewrite lookup_insert_ne.
        * apply map_subseteq_spec. intros k c Hk. rewrite lookup_insert_ne by (intros ->; congruence).
          by eapply lookup_weaken.
        * rewrite lookup_insert. unfold bput. simpl. do 2 f_equal.
          replace i with (length vd) by lia. apply map_seq_snoc_0.
        * erewrite take_S_r by done. by apply all_own_snoc.
        * lia.
        * intros w' vd' hn' p Hvd' Hd' Hw' He'. rewrite insert_insert in Hw'. eapply Hok; try done.
          apply map_disjoint_alt. intros k. rewrite map_disjoint_alt in Hd'. specialize (Hd' k).
          destruct (decide (k = bd)) as [->|]; [|by rewrite lookup_insert_ne in Hd' by done].
          rewrite lookup_insert in Hd'. destruct Hd'; [by left|done].
        * intros w' p e Hw' He'. rewrite insert_insert in Hw'. by eapply Hfail.
      + intros w1 e Hw1 He1. rbind. apply runs_has_err. rewrite He1. rbind.
        replace (Ptr bd i) with (Ptr bd (length vd)) by (f_equal; lia).
        eapply runs_g_destroy_all; [by rewrite Hw1|done|done|lia|done|].
        intros w' Hw' He'. apply runs_ret. eapply Hfail; [done|by rewrite He'].
  Qed.

  Lemma runs_g_uninit w bs bd src al rq rm vs xs hs hr (Q : _ -> W -> Prop) :
    bs <> bd -> w_err w = None -> w_heap w = hr ->
    hr !! bs = Some src -> length vs <= b_room src ->
    (forall k v, vs !! k = Some v -> b_live src !! k = Some v) ->
    all_own Own vs xs hs -> hs ⊆ hr -> hs !! bd = None ->
    hr !! bd = Some (Block al rq rm ∅) -> length vs <= rm ->
    (forall w' vd' hn' p, all_own Own vd' xs hn' -> hn' ##ₘ hr ->
       w_heap w' = hn' ∪ <[bd:=Block al rq rm (map_seq 0 vd')]> hr -> w_err w' = None -> Q p w') ->
    (forall w' p e, w_heap w' = <[bd:=Block al rq rm ∅]> hr -> w_err w' = Some e -> Q p w') ->
    runs (g_uninitialised_copy cons des (Ptr bs 0) (Ptr bs (length vs)) (Ptr bd 0)) w Q.
  Proof.
    intros. unfold g_uninitialised_copy.
    eapply (runs_g_uninit_loop _ w bs bd src al rq rm vs xs hs [] ∅ hr 0); try done.
    - by rewrite (left_id_L ∅ (∪)).
    - apply map_disjoint_empty_l.
    - constructor.
    - lia.
    - simpl. lia.
  Qed.

  (** ** Vectors *)

  Notation nowns := (nvec_owns cf Own).
  Notation narg := (narg Own).
  Notation nvec_broken := (nvec_broken Own).

  Lemma nowns_size v xs cap h w (Q : _ -> W -> Prop) :
    nowns v xs cap h -> Q (length xs) w -> runs (vec_size v) w Q.
  Proof.
    intros (vs & hb & hs & Ho & Ha & _) HQ. rewrite <-(all_own_length _ _ _ _ Ha) in HQ. by eapply owns_size.
  Qed.
  Lemma nowns_capacity v xs cap h w (Q : _ -> W -> Prop) :
    nowns v xs cap h -> Q cap w -> runs (vec_capacity v) w Q.
  Proof. intros (vs & hb & hs & Ho & Ha & _) HQ. by eapply owns_capacity. Qed.
  Lemma nowns_le v xs cap h : nowns v xs cap h -> length xs <= cap.
  Proof. intros (vs & hb & hs & Ho & Ha & _). rewrite <-(all_own_length _ _ _ _ Ha). by eapply owns_le. Qed.
  Lemma nowns_cap_ok v xs cap h : cfg_ok cf -> nowns v xs cap h -> cap_ok cf cap.
  Proof. intros Hcf (vs & hb & hs & Ho & Ha & _). by eapply owns_cap_ok. Qed.
  Lemma nowns_new al : nowns (vec_new al) [] 0 ∅.
  Proof.
    exists [], ∅, ∅. split; [apply owns_new|]. split; [constructor|].
    split; [apply map_disjoint_empty_l|by rewrite (left_id_L ∅ (∪))].
  Qed.
  Lemma nowns_move v xs cap h al : nowns v xs cap h -> m_allocator v = al ->
    nowns (Vec al (m_start v) (m_finish v) (m_end_of_storage v)) xs cap h.
  Proof. intros (vs & hb & hs & Ho & ?) <-. exists vs, hb, hs. split; [by apply owns_move|done]. Qed.
  Lemma nowns_nulls al : nowns (Vec al Null Null Null) [] 0 ∅.
  Proof. apply nowns_new. Qed.

  (** The two shapes *)
  Lemma nowns_inv v xs cap h : nowns v xs cap h ->
    (m_start v = Null /\ m_finish v = Null /\ m_end_of_storage v = Null /\ xs = [] /\ cap = 0 /\ h = ∅)
    \/ (exists b vs hs, m_start v = Ptr b 0 /\ m_finish v = Ptr b (length vs) /\ m_end_of_storage v = Ptr b cap /\
          length vs <= cap /\ cap_ok cf cap /\ all_own Own vs xs hs /\ hs !! b = None /\
          h = <[b := Block (m_allocator v) cap cap (map_seq 0 vs)]> hs).
  Proof.
    intros (vs & hb & hs & [(Hs & Hf & He & -> & -> & ->)|(b & Hs & Hf & He & Hle & Hc & ->)] & Ha & Hd & ->).
    - left. apply all_own_nil_inv in Ha as [-> ->]. by rewrite (left_id_L ∅ (∪)).
    - right. exists b, vs, hs. rewrite map_disjoint_singleton_l in Hd.
      repeat split; try done. by rewrite <-insert_union_singleton_l.
  Qed.
  Lemma nowns_block v b vs xs cap hs :
    m_start v = Ptr b 0 -> m_finish v = Ptr b (length vs) -> m_end_of_storage v = Ptr b cap ->
    length vs <= cap -> cap_ok cf cap -> all_own Own vs xs hs -> hs !! b = None ->
    nowns v xs cap (<[b := Block (m_allocator v) cap cap (map_seq 0 vs)]> hs).
  Proof.
    intros Hs Hf He Hle Hc Ha Hb. exists vs, {[b := Block (m_allocator v) cap cap (map_seq 0 vs)]}, hs.
    split; [right; exists b; done|]. split; [done|]. split; [by apply map_disjoint_singleton_l|].
    by rewrite <-insert_union_singleton_l.
  Qed.

  Lemma h_block_frame h hs hf b c :
    hs !! b = None -> <[b:=c]> hs ##ₘ hf ->
    <[b:=c]> hs ∪ hf = hs ∪ <[b:=c]> hf /\ hs ##ₘ <[b:=c]> hf /\ hf !! b = None /\ hs ##ₘ hf.
  Proof.
    intros Hb Hd. apply map_disjoint_insert_l in Hd as [Hbf Hd].
    split; [|split; [by apply map_disjoint_insert_r|done]].
    rewrite <-insert_union_l. by rewrite insert_union_r.
  Qed.

  Lemma runs_g_vec_destroy v xs cap h hf w (Q : _ -> W -> Prop) :
    nowns v xs cap h -> heap_is w h hf ->
    (forall w', w_heap w' = hf -> w_err w' = w_err w -> Q tt w') ->
    runs (g_vec_destroy des v) w Q.
  Proof.
    intros Ho [Hw Hd] HQ. unfold g_vec_destroy.
    apply nowns_inv in Ho as [(Hs & Hf & Hen & -> & -> & ->)|(b & vs & hs & Hs & Hf & Hen & Hle & Hc & Ha & Hb & ->)];
      rewrite Hs, Hf, Hen.
    - rbind. apply runs_g_destroy_null. rbind. apply runs_pdiff_null. apply runs_deallocate_null.
      apply HQ; [|done]. by rewrite Hw, (left_id_L ∅ (∪)).
    - destruct (h_block_frame ∅ _ _ _ _ Hb Hd) as (E1 & Hd1 & Hbf & _). rewrite E1 in Hw.
      rbind. eapply runs_g_destroy_all; [done..|by rewrite lookup_insert|done|done|].
      intros w1 Hw1 He1. rewrite insert_insert in Hw1.
      rbind. apply runs_pdiff; [lia|]. rewrite Nat.sub_0_r.
      eapply runs_deallocate; [by rewrite Hw1, lookup_insert|].
      apply HQ; simpl; [|done]. by rewrite Hw1, delete_insert.
  Qed.

  Lemma runs_g_clear v xs cap h hf w (Q : _ -> W -> Prop) :
    nowns v xs cap h -> heap_is w h hf ->
    (forall v' h' w', nowns v' [] cap h' -> heap_is w' h' hf -> w_err w' = w_err w ->
       m_start v' = m_start v -> m_allocator v' = m_allocator v -> Q v' w') ->
    runs (g_clear des v) w Q.
  Proof.
    intros Ho [Hw Hd] HQ. unfold g_clear.
    apply nowns_inv in Ho as [(Hs & Hf & Hen & -> & -> & ->)|(b & vs & hs & Hs & Hf & Hen & Hle & Hc & Ha & Hb & ->)];
      rewrite Hs, Hf, Hen.
    - rbind. apply runs_g_destroy_null. apply runs_ret.
      eapply (HQ _ ∅); try done. apply nowns_nulls.
    - destruct (h_block_frame ∅ _ _ _ _ Hb Hd) as (E1 & Hd1 & Hbf & _). rewrite E1 in Hw.
      rbind. eapply runs_g_destroy_all; [done..|by rewrite lookup_insert|done|done|].
      intros w1 Hw1 He1. rewrite insert_insert in Hw1. apply runs_ret.
      eapply (HQ _ (<[b := Block (m_allocator v) cap cap (map_seq 0 [])]> ∅)); simpl; try done.
      + eapply (nowns_block (Vec (m_allocator v) (Ptr b 0) (Ptr b 0) (Ptr b cap)) b []); simpl; try done; [lia|constructor].
      + split; simpl.
        * by rewrite Hw1, insert_empty, insert_union_singleton_l.
        * rewrite insert_empty. by apply map_disjoint_singleton_l.
  Qed.

  Lemma h_reserve hs hf hn b bd c c2 :
    hs !! b = None -> <[b:=c]> hs ##ₘ hf -> (<[b:=c]> hs ∪ hf) !! bd = None ->
    hn ##ₘ <[bd:=c2]> (<[b:=c]> hs ∪ hf) -> forall c3,
    hn ∪ <[bd:=c3]> (<[bd:=c2]> (<[b:=c]> hs ∪ hf)) = hs ∪ <[b:=c]> (<[bd:=c3]> hn ∪ hf) /\
    hs ##ₘ <[b:=c]> (<[bd:=c3]> hn ∪ hf) /\ (<[bd:=c3]> hn ∪ hf) !! b = None /\ hn !! bd = None /\
    <[bd:=c3]> hn ##ₘ hf.
  Proof.
    intros H1 H2 H3 H4 c3. rewrite insert_insert. apply lookup_union_None in H3 as [H3 H3'].
    apply lookup_insert_None in H3 as [H3 Hne].
    apply map_disjoint_insert_l in H2 as [H2 H2'].
    apply map_disjoint_insert_r in H4 as [H4 H4'].
    apply map_disjoint_union_r in H4' as [H4' H5]. apply map_disjoint_insert_r in H4' as [H6 H7].
    split; [|split; [|split; [|split]]]; [ | | |done|by apply map_disjoint_insert_l].
    - rewrite <-!insert_union_l. rewrite <-!insert_union_r by done.
      rewrite insert_commute by done. do 2 f_equal.
      rewrite !(assoc_L (∪)). f_equal. by apply map_union_comm.
    - apply map_disjoint_insert_r. split; [done|]. apply map_disjoint_union_r. split; [|done].
      apply map_disjoint_insert_r. split; [done|by symmetry].
    - apply lookup_union_None. split; [|done]. by rewrite lookup_insert_ne by done.
  Qed.

  Lemma runs_g_do_reserve v xs cap h hf n w (Q : _ -> W -> Prop) :
    cfg_ok cf -> nowns v xs cap h -> heap_is w h hf -> w_err w = None ->
    length xs <= n -> (N.of_nat n * c_sizeof cf < 2^64)%N ->
    (forall v' b h' w', m_start v' = Ptr b 0 -> m_allocator v' = m_allocator v ->
       w_heap w !! b = None ->
       nowns v' xs n h' -> heap_is w' h' hf -> w_err w' = None -> Q v' w') ->
    (forall w' e, w_heap w' = w_heap w -> w_err w' = Some e -> Q v w') ->
    runs (g_do_reserve cf cons des v n) w Q.
  Proof.
    intros Hcf Ho [Hw Hd] He Hn Hbytes Hok Hfail. unfold g_do_reserve.
    rbind. apply runs_allocate; [done..| |].
    2:{ intros orc. rbind. apply runs_has_err; simpl. apply runs_ret. eapply Hfail; simpl; done. }
    intros bd orc Hbd Hcn. rbind. apply runs_has_err; simpl. rewrite He.
    apply nowns_inv in Ho as [(Hs & Hf & Hen & -> & -> & ->)|(b & vs & hs & Hs & Hf & Hen & Hle & Hc & Ha & Hb & ->)];
      rewrite Hs, Hf.
    - rbind. unfold g_uninitialised_copy; simpl. apply runs_ret.
      rbind. apply runs_has_err; simpl.
      rbind. unfold vec_size; rewrite Hs, Hf; simpl. apply runs_pdiff_null.
      rbind. apply runs_g_destroy_null.
      rbind. rewrite Hen; simpl. apply runs_pdiff_null.
      rbind. apply runs_deallocate_null.
      rbind. eapply runs_padd; [simpl; by rewrite lookup_insert|simpl; lia|].
      rbind. eapply runs_padd; [simpl; by rewrite lookup_insert|simpl; lia|].
      rbind. apply runs_deallocate_null. apply runs_ret.
      eapply (Hok _ bd (<[bd := Block (m_allocator v) n n (map_seq 0 [])]> ∅)); simpl; try done.
      + eapply (nowns_block (Vec (m_allocator v) (Ptr bd 0) (Ptr bd 0) (Ptr bd n)) bd []); simpl; try done; constructor.
      + rewrite Hw, (left_id_L ∅ (∪)) in *. split; simpl.
        * by rewrite insert_empty, insert_union_singleton_l.
        * rewrite insert_empty. by apply map_disjoint_singleton_l.
    - pose proof (all_own_length _ _ _ _ Ha) as Hlen.
      assert (bd <> b). { intros ->. rewrite Hw in Hbd. apply lookup_union_None in Hbd as [Hbd _]. by rewrite lookup_insert in Hbd. }
      assert (Hhb : w_heap w !! b = Some (Block (m_allocator v) cap cap (map_seq 0 vs))).
      { rewrite Hw. apply lookup_union_Some_l. by rewrite lookup_insert. }
      assert (Hsub : hs ⊆ w_heap w).
      { rewrite Hw. etrans; [by apply insert_subseteq|by apply map_union_subseteq_l]. }
      rbind. eapply (runs_g_uninit _ b bd _ (m_allocator v) n n vs xs hs); simpl.
      + done.
      + done.
      + done.
      + by rewrite lookup_insert_ne.
      + done.
      + simpl. intros k x Hk. by rewrite lookup_map_seq_0.
      + done.
      + etrans; [exact Hsub|]. by apply insert_subseteq.
      + by eapply lookup_weaken_None.
      + by rewrite lookup_insert.
      + lia.
      + intros w1 vd hn p Hvd Hdn Hw1 He1. rewrite Hw in Hw1, Hdn, Hbd.
        destruct (h_reserve hs hf hn b bd _ _ Hb Hd Hbd Hdn (Block (m_allocator v) n n (map_seq 0 vd))) as (E1 & E2 & E3 & E4 & E5).
        rewrite E1 in Hw1.
        rbind. apply runs_has_err; simpl. rewrite He1.
        rbind. unfold vec_size; rewrite Hs, Hf. apply runs_pdiff; [lia|]. rewrite Nat.sub_0_r.
        rbind. eapply runs_g_destroy_all; [exact Hw1|done|by rewrite lookup_insert|done|done|].
        intros w2 Hw2 He2. rewrite insert_insert in Hw2.
        rbind. rewrite Hen. apply runs_pdiff; [lia|]. rewrite Nat.sub_0_r.
        rbind. eapply runs_deallocate; [by rewrite Hw2, lookup_insert|].
        rewrite Hw2, delete_insert by done.
        pose proof (all_own_length _ _ _ _ Hvd) as Hlend.
        assert (Hlk : (<[bd:=Block (m_allocator v) n n (map_seq 0 vd)]> hn ∪ hf) !! bd = Some (Block (m_allocator v) n n (map_seq 0 vd))).
        { apply lookup_union_Some_l. by rewrite lookup_insert. }
        rbind. eapply runs_padd; [simpl; exact Hlk|simpl; lia|].
        rbind. eapply runs_padd; [simpl; exact Hlk|simpl; lia|].
        rbind. apply runs_deallocate_null. apply runs_ret.
        eapply (Hok _ bd (<[bd := Block (m_allocator v) n n (map_seq 0 vd)]> hn)); simpl; try done.
        * rewrite Hw. done.
        * eapply (nowns_block (Vec (m_allocator v) (Ptr bd 0) (Ptr bd (length vs)) (Ptr bd n)) bd vd); simpl; try done.
          -- by rewrite Hlend, Hlen.
          -- lia.
        * by rewrite He2.
      + intros w1 p e Hw1 He1. rbind. apply runs_has_err. rewrite He1.
        rbind. eapply runs_deallocate; [by rewrite Hw1, lookup_insert|].
        apply runs_ret. eapply Hfail; simpl; [|done].
        by rewrite Hw1, insert_insert, delete_insert.
  Qed.

  Lemma runs_g_reserve v xs cap h hf n w (Q : _ -> W -> Prop) :
    cfg_ok cf -> nowns v xs cap h -> heap_is w h hf -> w_err w = None ->
    (N.of_nat n * c_sizeof cf < 2^64)%N ->
    (n <= cap -> Q v w) ->
    (forall v' b h' w', cap < n -> m_start v' = Ptr b 0 -> m_allocator v' = m_allocator v ->
       w_heap w !! b = None ->
       nowns v' xs n h' -> heap_is w' h' hf -> w_err w' = None -> Q v' w') ->
    (forall w' e, cap < n -> w_heap w' = w_heap w -> w_err w' = Some e -> Q v w') ->
    runs (g_reserve cf cons des v n) w Q.
  Proof.
    intros Hcf Ho Hh He Hb Hsame Hok Hfail. unfold g_reserve.
    rbind. eapply nowns_capacity; [done|]. case_decide as Hle.
    - apply runs_ret. by apply Hsame.
    - assert (cap < n) by lia. rewrite decide_False.
      + pose proof (nowns_le _ _ _ _ Ho).
        eapply runs_g_do_reserve; try done; [lia| |]; intros; eauto.
      + pose proof (bytes_fits cf n Hcf Hb). unfold fits, size_max in *. lia.
  Qed.

  Lemma runs_g_grow v xs cap h hf required w (Q : _ -> W -> Prop) :
    cfg_ok cf -> nowns v xs cap h -> heap_is w h hf -> w_err w = None ->
    (N.of_nat required * c_sizeof cf < 2^64)%N ->
    cap < required \/ fits (3 * (cap + 1)) ->
    (forall v' b h' w', m_start v' = Ptr b 0 -> m_allocator v' = m_allocator v ->
       w_heap w !! b = None ->
       nowns v' xs (grow_cap cap required) h' -> heap_is w' h' hf -> w_err w' = None -> Q v' w') ->
    (forall w' e, w_heap w' = w_heap w -> w_err w' = Some e -> Q v w') ->
    runs (g_grow cf cons des v required) w Q.
  Proof.
    intros Hcf Ho Hh He Hb Hgt Hok Hfail. unfold g_grow.
    pose proof (nowns_cap_ok _ _ _ _ Hcf Ho) as Hco.
    pose proof (grow_cap_gt cap required Hgt) as Hg.
    rbind. eapply nowns_capacity; [done|]. fold (grow_cap cap required).
    rbind. apply runs_assert; [by apply bool_decide_eq_true|].
    eapply runs_g_reserve; try done.
    - by apply grow_cap_bytes.
    - lia.
    - intros. eauto.
    - intros. eauto.
  Qed.

  Lemma runs_g_shrink v xs cap h hf w (Q : _ -> W -> Prop) :
    cfg_ok cf -> nowns v xs cap h -> heap_is w h hf -> w_err w = None ->
    (length xs = cap -> Q v w) ->
    (forall v' b h' w', length xs < cap -> m_start v' = Ptr b 0 -> m_allocator v' = m_allocator v ->
       w_heap w !! b = None ->
       nowns v' xs (length xs) h' -> heap_is w' h' hf -> w_err w' = None -> Q v' w') ->
    (forall w' e, length xs < cap -> w_heap w' = w_heap w -> w_err w' = Some e -> Q v w') ->
    runs (g_shrink_to_fit cf cons des v) w Q.
  Proof.
    intros Hcf Ho Hh He Hsame Hok Hfail. unfold g_shrink_to_fit.
    pose proof (nowns_cap_ok _ _ _ _ Hcf Ho) as Hco. pose proof (nowns_le _ _ _ _ Ho).
    rbind. eapply nowns_capacity; [done|]. rbind. eapply nowns_size; [done|].
    case_decide.
    - eapply runs_g_do_reserve; try done; eauto.
      apply cap_ok_bytes; [done|]. unfold cap_ok in *. destruct Hcf as [[??]?]. nia.
    - apply runs_ret. apply Hsame. lia.
  Qed.

  (** ** Insertion *)

  Lemma h_shift h1 h2 hn hr b c c1 :
    hr !! b = Some c -> h1 ##ₘ h2 -> (h1 ∪ h2) ##ₘ hr -> hn ##ₘ ((h1 ∪ h2) ∪ hr) ->
    hn ∪ <[b:=c1]> ((h1 ∪ h2) ∪ hr) = h1 ∪ ((hn ∪ h2) ∪ <[b:=c1]> hr) /\ h1 ##ₘ ((hn ∪ h2) ∪ <[b:=c1]> hr) /\
    hn ##ₘ h2 /\ (hn ∪ h2) ##ₘ hr /\ (hn ∪ h2) ##ₘ <[b:=c1]> hr.
  Proof. intros. repeat split; hsolve. Qed.

  Lemma runs_g_shift_loop fuel w b al rq rm vs xs hs hr i j live (Q : _ -> W -> Prop) :
    w_err w = None -> w_heap w = hs ∪ hr -> hs ##ₘ hr -> hr !! b = Some (Block al rq rm live) ->
    all_own Own vs xs hs -> pat vs j live ->
    i <= j -> j <= length vs -> length vs < rm -> j - i < fuel ->
    (forall w' live' vs' hs', pat vs' i live' -> all_own Own vs' xs hs' -> hs' ##ₘ hr ->
       w_heap w' = hs' ∪ <[b:=Block al rq rm live']> hr -> w_err w' = None -> Q true w') ->
    (forall w' live' vs' hs' j' e, i < j' <= j -> pat vs' j' live' -> all_own Own vs' xs hs' -> hs' ##ₘ hr ->
       w_heap w' = hs' ∪ <[b:=Block al rq rm live']> hr -> w_err w' = Some e -> Q false w') ->
    runs (g_shift_loop cons des fuel (Ptr b j) (Ptr b i)) w Q.
  Proof.
    revert w j live vs hs hr Q. induction fuel as [|fuel IH];
      intros w j live vs hs hr Q He Hw Hd Hb Hown Hp Hij Hj Hrm Hfuel Hok Hfail; [lia|].
    simpl. case_decide as Heq.
    - simplify_eq. apply runs_ret. eapply Hok; try done. by rewrite insert_id.
    - assert (i < j) by (assert (i <> j) by congruence; lia).
      destruct j as [|j]; [lia|]. rbind. apply runs_ret.
      destruct (lookup_lt_is_Some_2 vs j) as [v Hv]; [lia|].
      assert (Hlj : live !! j = Some v) by (rewrite Hp, decide_True by lia; done).
      destruct (all_own_focus _ _ _ _ _ _ Hown Hv) as (x & h1 & h2 & Hx & Hox & Hd12 & Hhs & Hupd).
      assert (Hwb : w_heap w !! b = Some (Block al rq rm live)).
      { rewrite Hw. by apply lookup_union_Some_r. }
      rbind. eapply (Hcons w b (S j) _ (ARef (Ptr b j)) v x h1).
      + done.
      + simpl. unfold read, load_block, load, bind, get_heap. rewrite Hwb. simpl.
        rewrite decide_True by lia. by rewrite Hlj.
      + done.
      + rewrite Hw, Hhs, <-(assoc_L (∪)). apply map_union_subseteq_l.
      + rewrite map_disjoint_alt in Hd. specialize (Hd b). rewrite Hb in Hd. destruct Hd as [Hd|]; [|done].
        rewrite Hhs in Hd. by apply lookup_union_None in Hd as [? _].
      + done.
      + simpl; lia.
      + simpl. rewrite Hp. rewrite decide_False, decide_True by lia. done.
      + intros w1 v' hn Hov Hdn Hw1 He1. rewrite Hw in Hdn, Hw1. rewrite Hhs in Hdn, Hw1, Hd.
        destruct (h_shift h1 h2 hn hr b _ (bput (Block al rq rm live) (S j) v') Hb Hd12 Hd Hdn) as (E1 & E2 & E3 & E4 & E4').
        rewrite E1 in Hw1.
        rbind. apply runs_has_err. rewrite He1.
        rbind. eapply (runs_g_destroy w1 b j (S j) al rq rm (<[S j:=v']> live) [v] [x] h1); simpl.
        * lia.
        * exact Hw1.
        * done.
        * apply lookup_union_Some_r; [done|]. by rewrite lookup_insert.
        * lia.
        * intros [|k] v0 Hk; [|done]. simpl in Hk. simplify_eq. rewrite Nat.add_0_r. by rewrite lookup_insert_ne by lia.
        * rewrite <-(right_id_L ∅ (∪) h1). constructor; [done|constructor|apply map_disjoint_empty_r].
        * intros w2 live' Hl' Hw2 He2. rbind. apply runs_ret.
          eapply (IH w2 j live' (<[j:=v']> vs) (hn ∪ h2) (<[b:=Block al rq rm live']> hr)).
          -- congruence.
          -- rewrite Hw2. destruct (h_ins (hn ∪ h2) (<[b:=bput (Block al rq rm live) (S j) v']> hr) b _ (Block al rq rm live') E4' (lookup_insert _ _ _)) as [-> _].
             by rewrite insert_insert.
          -- by destruct (h_ins (hn ∪ h2) hr b _ (Block al rq rm live') E4 Hb) as [_ ?].
          -- by rewrite lookup_insert.
          -- by apply Hupd.
          -- intros k. rewrite Hl'. destruct (decide (k = j)) as [->|].
             { repeat case_decide; try lia; done. }
             rewrite (list_lookup_insert_ne _ j k) by lia. rewrite decide_False by lia.
             destruct (decide (k = S j)) as [->|].
             { rewrite lookup_insert. rewrite !decide_False by lia. replace (S j - 1) with j by lia.
               rewrite list_lookup_insert by lia. done. }
             rewrite lookup_insert_ne by lia. rewrite Hp.
             destruct (decide (k < j)).
             { by rewrite decide_True by lia. }
             rewrite !decide_False by lia. by rewrite list_lookup_insert_ne by lia.
          -- lia.
          -- rewrite insert_length. lia.
          -- rewrite insert_length. lia.
          -- lia.
          -- intros w' live'' vs' hs' Hp' Ho' Hd' Hw' He'. rewrite insert_insert in Hw'. eapply Hok; try done.
             by apply map_disjoint_insert_r in Hd' as [_ ?].
          -- intros w' live'' vs' hs' j' e Hj' Hp' Ho' Hd' Hw' He'. rewrite insert_insert in Hw'.
             eapply (Hfail w' live'' vs' hs' j'); try done; [lia|]. by apply map_disjoint_insert_r in Hd' as [_ ?].
      + intros w1 e Hw1 He1. rbind. apply runs_has_err. rewrite He1. apply runs_ret.
        eapply (Hfail w1 live vs hs (S j)); try done. by rewrite Hw1, Hw, insert_id.
  Qed.

  Definition nins_post v xs cap hf i x (r : ptr * vec_obj) w' : Prop :=
    m_allocator r.2 = m_allocator v /\
    let cap' := if decide (cap = length xs) then grow_cap cap (S cap) else cap in
    ((w_err w' = None /\ r.1 = vec_pos r.2 i /\
      exists h', nowns r.2 (take i xs ++ x :: drop i xs) cap' h' /\ heap_is w' h' hf)
     \/
     (exists e, w_err w' = Some e /\ r.1 = vec_end r.2 /\
      ((exists cap'' h', nowns r.2 xs cap'' h' /\ heap_is w' h' hf)
       \/ (i < length xs /\ nvec_broken r.2 xs i hf w')))).

  Lemma narg_val hv hf a v w :
    arg_outside hf a v -> w_heap w = hv ∪ hf -> hv ##ₘ hf -> arg_val w a v.
  Proof. apply arg_outside_val. Qed.

  Lemma arg_outside_ins hf a v b c : arg_outside hf a v -> hf !! b = None -> arg_outside (<[b:=c]> hf) a v.
  Proof.
    destruct a as [y|[|b' o]]; simpl; [done..|]. intros (blk & Hb & ? & ?) Hn. exists blk.
    rewrite lookup_insert_ne by congruence. done.
  Qed.

  Lemma h_insert hs hf hn b c c1 :
    hf !! b = None -> hs !! b = None -> hs ##ₘ hf -> hn ##ₘ (hs ∪ <[b:=c]> hf) ->
    hn ∪ <[b:=c1]> (hs ∪ <[b:=c]> hf) = <[b:=c1]> (hn ∪ hs) ∪ hf /\ <[b:=c1]> (hn ∪ hs) ##ₘ hf /\
    (hn ∪ hs) !! b = None /\ hn ##ₘ hs.
  Proof.
    intros H1 H2 H3 H4. apply map_disjoint_union_r in H4 as [H4 H5]. apply map_disjoint_insert_r in H5 as [H5 H6].
    repeat split; [|apply map_disjoint_insert_l; split; [done|by apply map_disjoint_union_l]|by apply lookup_union_None|done].
    rewrite <-!insert_union_r, insert_insert by done. rewrite <-insert_union_l, (assoc_L (∪)). done.
  Qed.

  (** a vector with its block among the frame's blocks *)
  Lemma h_fold hs hf b c :
    hf !! b = None -> hs !! b = None -> hs ##ₘ hf ->
    hs ∪ <[b:=c]> hf = <[b:=c]> hs ∪ hf /\ <[b:=c]> hs ##ₘ hf.
  Proof.
    intros H1 H2 H3. split.
    - by rewrite <-insert_union_r, insert_union_l.
    - by apply map_disjoint_insert_l.
  Qed.

  Lemma runs_g_insert_room v b vs xs hs cap hf i a x w (Q : _ -> W -> Prop) :
    m_start v = Ptr b 0 -> m_finish v = Ptr b (length vs) -> m_end_of_storage v = Ptr b cap ->
    length vs < cap -> cap_ok cf cap -> i <= length vs -> all_own Own vs xs hs -> hs !! b = None ->
    heap_is w (<[b := Block (m_allocator v) cap cap (map_seq 0 vs)]> hs) hf -> w_err w = None ->
    narg hf a x ->
    (forall r w',
      m_allocator r.2 = m_allocator v -> m_start r.2 = m_start v ->
      ((w_err w' = None /\ r.1 = Ptr b i /\
        exists h', nowns r.2 (take i xs ++ x :: drop i xs) cap h' /\ heap_is w' h' hf)
       \/
       (exists e, w_err w' = Some e /\ r.1 = vec_end r.2 /\
        ((exists h', nowns r.2 xs cap h' /\ heap_is w' h' hf)
         \/ (i < length xs /\ nvec_broken r.2 xs i hf w')))) -> Q r w') ->
    runs (let! cap := vec_capacity v in
          let! n := vec_size v in
          do! assert_ cf (bool_decide (n < cap)) in
          let last := m_finish v in
          let! first := padd (m_start v) i in
          let! ok := g_shift_loop cons des (S (poff last)) last first in
          if negb ok then ret (vec_end v, v) else
          do! cons first a in
          let! e := has_err in
          if (e : bool) then ret (vec_end v, v) else
          let! fin := padd (m_finish v) 1 in
          ret (first, Vec (m_allocator v) (m_start v) fin (m_end_of_storage v))) w Q.
  Proof.
    intros Hs Hf Hen Hlt Hc Hi Hown Hb [Hw Hd] He (va & hx & Ha & Hox & Hxs) HQ.
    pose proof (all_own_length _ _ _ _ Hown) as Hlen.
    destruct (h_block_frame ∅ _ _ _ _ Hb Hd) as (E1 & Hd1 & Hbf & Hd2). rewrite E1 in Hw.
    assert (Hwb : w_heap w !! b = Some (Block (m_allocator v) cap cap (map_seq 0 vs))).
    { rewrite Hw. apply lookup_union_Some_r; [done|]. apply lookup_insert. }
    assert (Hnb : forall h' c, h' ##ₘ <[b:=c]> hf -> h' !! b = None).
    { intros h' c Hd'. by apply map_disjoint_insert_r in Hd' as [? _]. }
    assert (Hfl : forall w' vs' hs' j live, i <= j <= length vs -> pat vs' j live -> all_own Own vs' xs hs' ->
              hs' ##ₘ hf -> hs' !! b = None -> w_heap w' = hs' ∪ <[b:=Block (m_allocator v) cap cap live]> hf ->
              forall e, w_err w' = Some e -> Q (vec_end v, v) w').
    { intros w' vs' hs' j live Hj Hp Ho' Hd' Hb' Hw' e He'.
      pose proof (all_own_length _ _ _ _ Ho') as Hlen'.
      destruct (h_fold hs' hf b (Block (m_allocator v) cap cap live) Hbf Hb' Hd') as [F1 F2].
      rewrite F1 in Hw'. apply HQ; [done|done|]. right. exists e. split; [done|]. split; [done|].
      destruct (decide (j = length vs)) as [->|].
      - left. replace (length vs) with (length vs') in Hp by lia. apply pat_end in Hp as ->. eexists. split; [|split; [exact Hw'|done]].
        apply nowns_block; simpl; try done; [|lia]. rewrite Hf. f_equal. lia.
      - right. split; [lia|]. exists b, cap, j, live, vs', hs'.
        repeat split; try done; simpl; try lia. rewrite Hf. f_equal. lia. }
    rbind. unfold vec_capacity. rewrite Hen, Hs. apply runs_pdiff; [lia|]. rewrite Nat.sub_0_r.
    rbind. unfold vec_size. rewrite Hf, Hs. apply runs_pdiff; [lia|]. rewrite Nat.sub_0_r.
    rbind. apply runs_assert; [by apply bool_decide_eq_true|]. cbv zeta.
    rbind. eapply runs_padd; [exact Hwb|simpl; lia|]. rewrite Nat.add_0_l.
    rbind. eapply (runs_g_shift_loop _ w b (m_allocator v) cap cap vs xs hs); try done.
    - by rewrite lookup_insert.
    - by apply pat_end.
    - simpl. lia.
    - intros w1 live' vs' hs' Hp' Ho' Hd' Hw1 He1. rewrite insert_insert in Hw1. simpl.
      pose proof (Hnb _ _ Hd') as Hb'. apply map_disjoint_insert_r in Hd' as [_ Hd'].
      assert (Hdi : hs' ##ₘ <[b:=Block (m_allocator v) cap cap live']> hf) by (by apply map_disjoint_insert_r).
      pose proof (all_own_length _ _ _ _ Ho') as Hlen'.
      rbind. eapply (Hcons w1 b i _ a va x hx).
      + done.
      + eapply (narg_val hs' (<[b:=Block (m_allocator v) cap cap live']> hf)); [by apply arg_outside_ins|done|done].
      + done.
      + rewrite Hw1. etrans; [exact Hxs|]. etrans; [by apply (insert_subseteq hf b)|by apply map_union_subseteq_r].
      + exact (lookup_weaken_None _ _ _ Hbf Hxs).
      + rewrite Hw1. apply lookup_union_Some_r; [done|]. apply lookup_insert.
      + simpl. lia.
      + simpl. rewrite Hp'. by rewrite decide_False, decide_True by lia.
      + intros w2 v' hn Hov Hdn Hw2 He2. rewrite Hw1 in Hw2, Hdn.
        destruct (h_insert hs' hf hn b _ (bput (Block (m_allocator v) cap cap live') i v') Hbf Hb' Hd' Hdn) as (G1 & G2 & G3 & G4).
        rewrite G1 in Hw2.
        rbind. apply runs_has_err. rewrite He2.
        rbind. eapply runs_padd.
        { rewrite Hw2. apply lookup_union_Some_l. apply lookup_insert. }
        { simpl. lia. }
        apply runs_ret. apply HQ; simpl; [done|done|]. left. split; [done|]. split; [done|].
        eexists. split; [|split; [exact Hw2|done]].
        unfold bput; simpl. rewrite (pat_insert vs' i live' v') by (first [done|lia]).
        assert (Hl1 : length (take i vs' ++ v' :: drop i vs') = length vs + 1).
        { rewrite app_length; simpl. rewrite take_length, drop_length. lia. }
        apply (nowns_block (Vec (m_allocator v) (Ptr b 0) (Ptr b (length vs + 1)) (Ptr b cap))); simpl; try done.
        * by rewrite Hl1.
        * lia.
        * by apply all_own_insert.
      + intros w2 e Hw2 He2. rbind. apply runs_has_err. rewrite He2. apply runs_ret.
        eapply (Hfl w2 vs' hs' i live'); try done. by rewrite Hw2.
    - intros w1 live' vs' hs' j' e Hj' Hp' Ho' Hd' Hw1 He1. simpl. rewrite insert_insert in Hw1. apply runs_ret.
      pose proof (Hnb _ _ Hd') as Hb'. apply map_disjoint_insert_r in Hd' as [_ Hd'].
      eapply (Hfl w1 vs' hs' j' live'); try done. lia.
  Qed.

  Lemma runs_g_insert_value v xs cap h hf i a x w (Q : _ -> W -> Prop) :
    cfg_ok cf -> nowns v xs cap h -> heap_is w h hf -> w_err w = None ->
    i <= length xs -> narg hf a x ->
    (forall r w', nins_post v xs cap hf i x r w' -> Q r w') ->
    runs (g_insert_value cf cons des v (vec_pos v i) a) w Q.
  Proof.
    intros Hcf Ho Hh He Hi Ha HQ. unfold g_insert_value.
    pose proof (nowns_cap_ok _ _ _ _ Hcf Ho) as Hco. pose proof (nowns_le _ _ _ _ Ho) as Hle.
    assert (Hpos : pleb (m_start v) (vec_pos v i) = true /\ pleb (vec_pos v i) (m_finish v) = true /\
              pdiff (vec_pos v i) (m_start v) = @ret (vblock V) _ i).
    { unfold vec_pos.
      apply nowns_inv in Ho as [(Hs & Hf & Hen & -> & -> & ->)|(b & vs & hs & Hs & Hf & Hen & _ & _ & Ho & Hb & ->)];
        rewrite Hs, Hf; simpl.
      - simpl in Hi. by replace i with 0 by lia.
      - rewrite <-(all_own_length _ _ _ _ Ho) in Hi.
        rewrite !bool_decide_eq_true_2 by (split; [done|lia]). unfold pdiff.
        rewrite decide_True by (split; [done|lia]). by rewrite Nat.sub_0_r. }
    destruct Hpos as (Hp1 & Hp2 & Hp3).
    rbind. apply runs_assert; [done|]. rbind. apply runs_assert; [done|].
    rbind. rewrite Hp3. apply runs_ret.
    rbind. eapply nowns_capacity; [done|]. rbind. eapply nowns_size; [done|].
    rbind. case_decide as Hfull.
    - assert (Hsz : sz (cap + 1) = S cap).
      { rewrite sz_fits; [lia|]. eapply bytes_fits; [done|]. replace (cap + 1) with (S cap) by lia.
        by apply cap_S_bytes. }
      rewrite Hsz. rbind. eapply runs_g_grow; try done.
      + by apply cap_S_bytes.
      + left; lia.
      + intros v' b h' w' Hs' Hal' Hfresh Ho' Hh' He'.
        rbind. apply runs_has_err. rewrite He'. apply runs_ret.
        apply nowns_inv in Ho' as [(Hs & _)|(b' & vs & hs & Hs & Hf & Hen & Hle' & Hc' & Hown & Hb & ->)]; [congruence|].
        rewrite Hs' in Hs. injection Hs as <-.
        pose proof (all_own_length _ _ _ _ Hown).
        eapply (runs_g_insert_room v' b vs xs hs); try done.
        * pose proof (grow_cap_ge cap (S cap)). lia.
        * lia.
        * intros r w'' Hal'' Hs'' Hpost. apply HQ. unfold nins_post.
          rewrite !decide_True by done. split; [congruence|].
          destruct Hpost as [(? & Hr & Hown')|(e & ? & ? & Hown')].
          -- left. split; [done|]. split; [|done]. unfold vec_pos. by rewrite Hs'', Hs'.
          -- right. exists e. split; [done|]. split; [done|].
             destruct Hown' as [(? & ?)|?]; [left; eauto|by right].
      + intros w' e Hhe He'. rbind. apply runs_has_err. rewrite He'. apply runs_ret. apply runs_ret.
        apply HQ. unfold nins_post. simpl. split; [done|]. right. exists e. split; [done|]. split; [done|].
        left. exists cap, h. split; [done|]. destruct Hh. split; [congruence|done].
    - apply runs_ret. simpl.
      apply nowns_inv in Ho as [(Hs & Hf & Hen & -> & -> & ->)|(b & vs & hs & Hs & Hf & Hen & Hle' & Hc & Hown & Hb & ->)]; [done|].
      pose proof (all_own_length _ _ _ _ Hown).
      eapply (runs_g_insert_room v b vs xs hs); try done; [lia|lia|].
      intros r w'' Hal'' Hs'' Hpost. apply HQ. unfold nins_post.
      rewrite !decide_False by done. split; [congruence|].
      destruct Hpost as [(? & Hr & Hown')|(e & ? & ? & Hown')].
      + left. split; [done|]. split; [|done]. unfold vec_pos. by rewrite Hs'', Hs.
      + right. exists e. split; [done|]. split; [done|].
        destruct Hown' as [(? & ?)|?]; [left; eauto|by right].
  Qed.

  Lemma nowns_pos_end v xs cap h : nowns v xs cap h -> m_finish v = vec_pos v (length xs).
  Proof.
    intros (vs & hb & hs & Ho & Ha & _). rewrite <-(all_own_length _ _ _ _ Ha). by eapply owns_pos_end.
  Qed.

  Lemma runs_g_push_back v xs cap h hf a x w (Q : _ -> W -> Prop) :
    cfg_ok cf -> nowns v xs cap h -> heap_is w h hf -> w_err w = None -> narg hf a x ->
    (forall v' h' w', m_allocator v' = m_allocator v ->
       nowns v' (xs ++ [x]) (if decide (cap = length xs) then grow_cap cap (S cap) else cap) h' ->
       heap_is w' h' hf -> w_err w' = None -> Q v' w') ->
    (forall v' cap' h' w' e, m_allocator v' = m_allocator v ->
       nowns v' xs cap' h' -> heap_is w' h' hf -> w_err w' = Some e -> Q v' w') ->
    runs (g_push_back cf cons des v a) w Q.
  Proof.
    intros Hcf Ho Hh He Ha Hok Hfail. unfold g_push_back. rewrite (nowns_pos_end _ _ _ _ Ho).
    rbind. eapply runs_g_insert_value; try done.
    intros r w' (Hal & [(He' & _ & h' & Ho' & Hh')|(e & He' & _ & [(cap' & h' & Ho' & Hh')|[Hlt _]])]).
    - apply runs_ret. rewrite take_ge, drop_ge in Ho' by lia. by eapply Hok.
    - apply runs_ret. by eapply Hfail.
    - lia.
  Qed.
End generic.

(** ** Plain elements: the functions of VecModel.v *)

Section plain.
  Context {V : Type} (cf : cfg V).
  Notation C := (construct_at cf).
  Lemma plain_destroy : g_destroy (V:=V) destroy1 = destroy.
  Proof. reflexivity. Qed.
  Lemma plain_uninitialised_copy : g_uninitialised_copy C destroy1 = uninitialised_copy cf.
  Proof. reflexivity. Qed.
  Lemma plain_reserve : g_reserve cf C destroy1 = vec_reserve cf.
  Proof. reflexivity. Qed.
  Lemma plain_shrink_to_fit : g_shrink_to_fit cf C destroy1 = vec_shrink_to_fit cf.
  Proof. reflexivity. Qed.
  Lemma plain_grow : g_grow cf C destroy1 = grow cf.
  Proof. reflexivity. Qed.
  Lemma plain_vec_destroy : g_vec_destroy (V:=V) destroy1 = vec_destroy.
  Proof. reflexivity. Qed.
  Lemma plain_clear : g_clear (V:=V) destroy1 = vec_clear.
  Proof. reflexivity. Qed.
  Lemma plain_move_assign : g_move_assign (V:=V) destroy1 = vec_move_assign.
  Proof. reflexivity. Qed.
  Lemma plain_insert_value : g_insert_value cf C destroy1 = insert_value cf.
  Proof. reflexivity. Qed.
  Lemma plain_push_back : g_push_back cf C destroy1 = vec_push_back cf.
  Proof. reflexivity. Qed.
  Lemma plain_resize : g_resize cf C destroy1 = vec_resize cf.
  Proof. reflexivity. Qed.
  Lemma plain_assign_ptrs : g_assign_ptrs cf C destroy1 = vec_assign_ptrs cf.
  Proof. reflexivity. Qed.
  Lemma plain_copy : g_copy cf C destroy1 = vec_copy cf.
  Proof. reflexivity. Qed.
  Lemma plain_copy_ctor : g_copy_ctor cf C destroy1 = hvec_copy_ctor cf.
  Proof. reflexivity. Qed.
  Lemma plain_copy_assign : g_copy_assign cf C destroy1 = hvec_copy_assign cf.
  Proof. reflexivity. Qed.
End plain.
