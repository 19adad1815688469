(** * Proofs about the list model: cells, rings and their surgery *)
From Verif Require Export ListSpec Perm.

Section cells.
  Context {V : Type} (cf : cfg V).
  Notation H := (gmap addr (lcell V)).
  Notation W := (world (lcell V)).
  Implicit Types h hv hf : H.
  Implicit Types w : W.

  (** ** Heap updates field by field *)

  Definition sn (a b : addr) (h : H) : H :=
    alter (fun c => LCell (Some b) (ln_prev c) (ln_body c)) a h.
  Definition sp (a b : addr) (h : H) : H :=
    alter (fun c => LCell (ln_next c) (Some b) (ln_body c)) a h.

  Lemma nx_sn a b h x : is_Some (h !! a) -> nx (sn a b h) x = if decide (x = a) then Some b else nx h x.
  Proof.
    intros [c Hc]. unfold nx, sn. case_decide; subst.
    - rewrite lookup_alter, Hc. done.
    - by rewrite lookup_alter_ne by done.
  Qed.
  Lemma pv_sn a b h x : pv (sn a b h) x = pv h x.
  Proof.
    unfold pv, sn. destruct (decide (x = a)) as [->|].
    - rewrite lookup_alter. by destruct (h !! a).
    - by rewrite lookup_alter_ne by done.
  Qed.
  Lemma bd_sn a b h x : bd (sn a b h) x = bd h x.
  Proof.
    unfold bd, sn. destruct (decide (x = a)) as [->|].
    - rewrite lookup_alter. by destruct (h !! a).
    - by rewrite lookup_alter_ne by done.
  Qed.
  Lemma nx_sp a b h x : nx (sp a b h) x = nx h x.
  Proof.
    unfold nx, sp. destruct (decide (x = a)) as [->|].
    - rewrite lookup_alter. by destruct (h !! a).
    - by rewrite lookup_alter_ne by done.
  Qed.
  Lemma pv_sp a b h x : is_Some (h !! a) -> pv (sp a b h) x = if decide (x = a) then Some b else pv h x.
  Proof.
    intros [c Hc]. unfold pv, sp. case_decide; subst.
    - rewrite lookup_alter, Hc. done.
    - by rewrite lookup_alter_ne by done.
  Qed.
  Lemma bd_sp a b h x : bd (sp a b h) x = bd h x.
  Proof.
    unfold bd, sp. destruct (decide (x = a)) as [->|].
    - rewrite lookup_alter. by destruct (h !! a).
    - by rewrite lookup_alter_ne by done.
  Qed.
  Lemma dom_sn a b h : dom (sn a b h) = dom h.
  Proof. apply dom_alter_L. Qed.
  Lemma dom_sp a b h : dom (sp a b h) = dom h.
  Proof. apply dom_alter_L. Qed.
  Lemma some_sn a b h x : is_Some (sn a b h !! x) <-> is_Some (h !! x).
  Proof. by rewrite <-!elem_of_dom, dom_sn. Qed.
  Lemma some_sp a b h x : is_Some (sp a b h !! x) <-> is_Some (h !! x).
  Proof. by rewrite <-!elem_of_dom, dom_sp. Qed.

  Lemma nx_some h a b : nx h a = Some b -> is_Some (h !! a).
  Proof. unfold nx. destruct (h !! a); by eauto. Qed.
  Lemma pv_some h a b : pv h a = Some b -> is_Some (h !! a).
  Proof. unfold pv. destruct (h !! a); by eauto. Qed.
  Lemma bd_some h a b : bd h a = Some b -> is_Some (h !! a).
  Proof. unfold bd. destruct (h !! a); by eauto. Qed.

  Lemma heap_is_upd w hv hv' hf :
    heap_is w hv hf -> dom hv' = dom hv -> heap_is (set_heap (hv' ∪ hf) w) hv' hf.
  Proof.
    intros [_ Hd] Hdom. split; [done|]. apply map_disjoint_dom. rewrite Hdom. by apply map_disjoint_dom.
  Qed.
  Lemma heap_is_self w hv hf : heap_is w hv hf -> set_heap (hv ∪ hf) w = w.
  Proof. intros [Hw _]. destruct w; simpl in *. by rewrite <-Hw. Qed.

  (** ** Running the field accesses in a fragment *)

  Lemma runs_get_next w hv hf a b (Q : _ -> W -> Prop) :
    heap_is w hv hf -> nx hv a = Some b -> Q b w -> runs (get_next a) w Q.
  Proof.
    intros [Hw _] Ha HQ. unfold get_next. rbind. unfold nx in Ha.
    destruct (hv !! a) as [c|] eqn:E; simpl in Ha; [|done].
    eapply runs_load; [rewrite Hw; by apply lookup_union_Some_l|]. rewrite Ha. by apply runs_ret.
  Qed.
  Lemma runs_get_prev w hv hf a b (Q : _ -> W -> Prop) :
    heap_is w hv hf -> pv hv a = Some b -> Q b w -> runs (get_prev a) w Q.
  Proof.
    intros [Hw _] Ha HQ. unfold get_prev. rbind. unfold pv in Ha.
    destruct (hv !! a) as [c|] eqn:E; simpl in Ha; [|done].
    eapply runs_load; [rewrite Hw; by apply lookup_union_Some_l|]. rewrite Ha. by apply runs_ret.
  Qed.
  Lemma runs_set_next w hv hf a b (Q : _ -> W -> Prop) :
    heap_is w hv hf -> is_Some (hv !! a) -> Q tt (set_heap (sn a b hv ∪ hf) w) -> runs (set_next a b) w Q.
  Proof.
    intros [Hw _] [c Hc] HQ. unfold set_next.
    assert (w_heap w !! a = Some c) as Hl by (rewrite Hw; by apply lookup_union_Some_l).
    rbind. eapply runs_load; [done|]. eapply runs_store; [done|].
    rewrite Hw, insert_union_l.
    replace (<[a:=LCell (Some b) (ln_prev c) (ln_body c)]> hv) with (sn a b hv); [done|].
    apply map_eq. intros x. unfold sn. destruct (decide (x = a)) as [->|].
    - by rewrite lookup_alter, lookup_insert, Hc.
    - by rewrite lookup_alter_ne, lookup_insert_ne by done.
  Qed.
  Lemma runs_set_prev w hv hf a b (Q : _ -> W -> Prop) :
    heap_is w hv hf -> is_Some (hv !! a) -> Q tt (set_heap (sp a b hv ∪ hf) w) -> runs (set_prev a b) w Q.
  Proof.
    intros [Hw _] [c Hc] HQ. unfold set_prev.
    assert (w_heap w !! a = Some c) as Hl by (rewrite Hw; by apply lookup_union_Some_l).
    rbind. eapply runs_load; [done|]. eapply runs_store; [done|].
    rewrite Hw, insert_union_l.
    replace (<[a:=LCell (ln_next c) (Some b) (ln_body c)]> hv) with (sp a b hv); [done|].
    apply map_eq. intros x. unfold sp. destruct (decide (x = a)) as [->|].
    - by rewrite lookup_alter, lookup_insert, Hc.
    - by rewrite lookup_alter_ne, lookup_insert_ne by done.
  Qed.

  Lemma runs_check w hv hf a p n (Q : _ -> W -> Prop) :
    heap_is w hv hf -> link hv p a -> link hv a n -> Q tt w -> runs (check_node cf a) w Q.
  Proof.
    intros Hh [Hpn Hp] [Hn Hnp] HQ. unfold check_node. destruct (c_dbg cf); [|by apply runs_ret].
    rbind. eapply runs_get_prev; [done..|]. rbind. eapply runs_get_next; [done..|].
    rbind. eapply runs_get_next; [done..|]. rbind. apply runs_assert; [by apply bool_decide_eq_true|].
    rbind. eapply runs_get_prev; [done..|]. apply runs_assert; [by apply bool_decide_eq_true|done].
  Qed.

  (** ** Paths and rings as sets of links *)

  Fixpoint opath (a : addr) (l : list addr) : list (addr * addr) :=
    match l with
    | [] => []
    | x :: l => (a, x) :: opath x l
    end.
  Fixpoint lastd (a : addr) (l : list addr) : addr :=
    match l with [] => a | x :: l => lastd x l end.
  Definition hdx (l : list addr) (b : addr) : addr := match l with [] => b | x :: _ => x end.
  Definition path (a : addr) (l : list addr) (b : addr) : list (addr * addr) :=
    opath a l ++ [(lastd a l, b)].
  Definition tpath (l : list addr) (b : addr) : list (addr * addr) :=
    match l with [] => [] | x :: l => path x l b end.

  Lemma path_cons a x l b : path a (x :: l) b = (a, x) :: path x l b.
  Proof. done. Qed.
  Lemma path_split a l r b : path a (l ++ r) b = opath a l ++ (lastd a l, hdx r b) :: tpath r b.
  Proof.
    revert a. induction l as [|x l IH]; intros a; simpl.
    - destruct r as [|y r]; simpl; [done|]. by rewrite path_cons.
    - by rewrite path_cons, IH.
  Qed.
  Lemma path_split0 a l b : path a l b = (a, hdx l b) :: tpath l b.
  Proof. apply (path_split a []). Qed.
  Lemma path_fst a l b : (path a l b).*1 = a :: l.
  Proof. revert a. induction l as [|x l IH]; intros a; [done|]. rewrite path_cons, fmap_cons, IH. done. Qed.
  Lemma path_snd a l b : (path a l b).*2 = l ++ [b].
  Proof. revert a. induction l as [|x l IH]; intros a; [done|]. rewrite path_cons, fmap_cons, IH. done. Qed.
  Lemma chain_path h a l b : chain h a l b <-> Forall (fun p => link h p.1 p.2) (path a l b).
  Proof.
    revert a. induction l as [|x l IH]; intros a.
    - unfold path; simpl. rewrite Forall_singleton. done.
    - rewrite path_cons, Forall_cons, <-IH. done.
  Qed.
  Lemma lastd_snoc a l x : lastd a (l ++ [x]) = x.
  Proof. revert a. induction l; simpl; auto. Qed.
  Lemma hdx_app l r b : hdx (l ++ r) b = hdx l (hdx r b).
  Proof. by destruct l. Qed.
  Lemma opath_app a l x r : opath a (l ++ x :: r) = opath a l ++ (lastd a l, x) :: opath x r.
  Proof. revert a. induction l as [|y l IH]; intros a; simpl; [done|]. by rewrite IH. Qed.
  Lemma lastd_app a l r : lastd a (l ++ r) = lastd (lastd a l) r.
  Proof. revert a. induction l; simpl; auto. Qed.

  (** A set of rings in a heap. *)
  Definition rings (ps : list (addr * addr)) h : Prop :=
    Forall (fun p => link h p.1 p.2) ps /\ NoDup ps.*1 /\ ps.*1 ≡ₚ ps.*2.

  Lemma rings_perm ps ps' h : ps ≡ₚ ps' -> rings ps h -> rings ps' h.
  Proof.
    intros Hp (Hf & Hn & He). split; [by rewrite <-Hp|]. split; [by rewrite <-Hp|].
    by rewrite <-Hp.
  Qed.

  Lemma rings_around ps h x : rings ps h -> x ∈ ps.*1 -> exists p n, link h p x /\ link h x n.
  Proof.
    intros (Hf & Hn & He) Hx. assert (x ∈ ps.*2) as Hx2 by by rewrite <-He.
    apply elem_of_list_fmap in Hx as ([x1 n] & -> & Hin). apply elem_of_list_fmap in Hx2 as ([p x2] & Heq & Hin2).
    simpl in *. subst x2. rewrite Forall_forall in Hf.
    exists p, n. split; [by apply (Hf _ Hin2)|by apply (Hf _ Hin)].
  Qed.

  Lemma runs_check_ring w hv hf ps x (Q : _ -> W -> Prop) :
    heap_is w hv hf -> rings ps hv -> x ∈ ps.*1 -> Q tt w -> runs (check_node cf x) w Q.
  Proof.
    intros Hh Hr Hx HQ. destruct (rings_around _ _ _ Hr Hx) as (p & n & Hp & Hn). by eapply runs_check.
  Qed.

  Lemma link_some_l h a b : link h a b -> is_Some (h !! a).
  Proof. intros [Ha _]. by eapply nx_some. Qed.
  Lemma link_some_r h a b : link h a b -> is_Some (h !! b).
  Proof. intros [_ Hb]. by eapply pv_some. Qed.

  (** The links not touched by an update of fields survive it. *)
  Lemma links_other R h h' (F S : list addr) :
    Forall (fun p => link h p.1 p.2) R ->
    (forall x, x ∈ R.*1 -> x ∉ F) -> (forall x, x ∈ R.*2 -> x ∉ S) ->
    (forall x, x ∉ F -> nx h' x = nx h x) -> (forall x, x ∉ S -> pv h' x = pv h x) ->
    Forall (fun p => link h' p.1 p.2) R.
  Proof.
    rewrite !Forall_forall. intros HR HF HS Hn Hp [a b] Hin. destruct (HR _ Hin) as [Ha Hb]. simpl in *.
    split; [rewrite Hn; [done|]|rewrite Hp; [done|]].
    - apply HF. apply elem_of_list_fmap. by exists (a, b).
    - apply HS. apply elem_of_list_fmap. by exists (a, b).
  Qed.

  (** ** transfer *)

  Lemma runs_transfer w hv hf ps this first last tp fp lp R (Q : _ -> W -> Prop) :
    heap_is w hv hf -> rings ps hv ->
    ps ≡ₚ (tp, this) :: (fp, first) :: (lp, last) :: R ->
    (forall hv', rings ((tp, first) :: (lp, this) :: (fp, last) :: R) hv' ->
       dom hv' = dom hv -> (forall x, bd hv' x = bd hv x) ->
       heap_is (set_heap (hv' ∪ hf) w) hv' hf -> Q tt (set_heap (hv' ∪ hf) w)) ->
    runs (transfer cf this first last) w Q.
  Proof.
    intros Hh Hr Hps HQ. apply (rings_perm _ _ _ Hps) in Hr. clear ps Hps.
    pose proof Hr as (Hf & Hn1 & He).
    assert (Hn2 : NoDup ((tp, this) :: (fp, first) :: (lp, last) :: R).*2) by by rewrite <-He.
    simpl in Hn1, Hn2, He.
    repeat (apply Forall_cons in Hf; destruct Hf as [? Hf]); simpl in *.
    repeat match goal with HH : link _ _ _ |- _ => pose proof (link_some_l _ _ _ HH); pose proof (link_some_r _ _ _ HH);
      let a := fresh "Hnx" in let b := fresh "Hpv" in destruct HH as [a b] end.
    repeat match goal with HH : NoDup (_ :: _) |- _ => let a := fresh "Hni" in let b := fresh "Hnd" in
      apply NoDup_cons in HH; destruct HH as [a b]; rewrite ?not_elem_of_cons in a end.
    assert (Hthis : this ∈ ((tp, this) :: (fp, first) :: (lp, last) :: R).*1) by (simpl; rewrite He, !elem_of_cons; tauto).
    assert (Hfirst : first ∈ ((tp, this) :: (fp, first) :: (lp, last) :: R).*1) by (simpl; rewrite He, !elem_of_cons; tauto).
    assert (Hlast : last ∈ ((tp, this) :: (fp, first) :: (lp, last) :: R).*1) by (simpl; rewrite He, !elem_of_cons; tauto).
    destruct_and?.
    unfold transfer.
    rbind. eapply runs_check_ring; [done..|]. rbind. eapply runs_check_ring; [done..|].
    rbind. eapply runs_check_ring; [done..|].
    rbind. apply runs_assert; [by rewrite bool_decide_false|].
    rbind. eapply runs_get_prev; [done..|].
    rbind. eapply runs_set_next; [done..|].
    assert (Hh1 : heap_is (set_heap (sn lp this hv ∪ hf) w) (sn lp this hv) hf)
      by (eapply heap_is_upd; [done|by rewrite dom_sn]).
    rbind. eapply runs_get_prev; [done|by rewrite pv_sn|].
    rbind. eapply runs_set_next; [done|by rewrite some_sn|]. simpl.
    set (h2 := sn fp last _). assert (Hh2 : heap_is (set_heap (h2 ∪ hf) w) h2 hf)
      by (eapply heap_is_upd; [done|by unfold h2; rewrite !dom_sn]).
    rbind. eapply runs_get_prev; [done|by unfold h2; rewrite !pv_sn|].
    rbind. eapply runs_set_next; [done|unfold h2; by rewrite !some_sn|].
    change (set_heap ?x (set_heap _ w)) with (set_heap x w).
    set (h3 := sn tp first h2). assert (Hh3 : heap_is (set_heap (h3 ∪ hf) w) h3 hf)
      by (eapply heap_is_upd; [done|by unfold h3, h2; rewrite !dom_sn]).
    rbind. eapply runs_get_prev; [done|by unfold h3, h2; rewrite !pv_sn|].
    rbind. eapply runs_get_prev; [done|by unfold h3, h2; rewrite !pv_sn|].
    rbind. eapply runs_set_prev; [done|unfold h3, h2; by rewrite !some_sn|].
    change (set_heap ?x (set_heap _ w)) with (set_heap x w).
    set (h4 := sp this lp h3). assert (Hh4 : heap_is (set_heap (h4 ∪ hf) w) h4 hf)
      by (eapply heap_is_upd; [done|by unfold h4, h3, h2; rewrite ?dom_sp, !dom_sn]).
    rbind. eapply runs_get_prev; [done| |].
    { unfold h4, h3, h2. rewrite pv_sp by (by rewrite !some_sn). rewrite decide_False by congruence. by rewrite !pv_sn. }
    rbind. eapply runs_set_prev; [done|unfold h4, h3, h2; by rewrite some_sp, !some_sn|].
    change (set_heap ?x (set_heap _ w)) with (set_heap x w).
    set (h5 := sp last fp h4). assert (Hh5 : heap_is (set_heap (h5 ∪ hf) w) h5 hf)
      by (eapply heap_is_upd; [done|by unfold h5, h4, h3, h2; rewrite !dom_sp, !dom_sn]).
    rbind. eapply runs_set_prev; [done|unfold h5, h4, h3, h2; by rewrite !some_sp, !some_sn|].
    change (set_heap ?x (set_heap _ w)) with (set_heap x w).
    set (h6 := sp first tp h5). assert (Hh6 : heap_is (set_heap (h6 ∪ hf) w) h6 hf)
      by (eapply heap_is_upd; [done|by unfold h6, h5, h4, h3, h2; rewrite !dom_sp, !dom_sn]).
    assert (Hnx6 : forall x, nx h6 x = if decide (x = tp) then Some first else if decide (x = fp) then Some last
       else if decide (x = lp) then Some this else nx hv x).
    { intros x. unfold h6, h5, h4. rewrite !nx_sp. unfold h3, h2. by rewrite !nx_sn by (by rewrite ?some_sn). }
    assert (Hpv6 : forall x, pv h6 x = if decide (x = first) then Some tp else if decide (x = last) then Some fp
       else if decide (x = this) then Some lp else pv hv x).
    { intros x. unfold h6, h5, h4. rewrite !pv_sp by (unfold h3, h2; by rewrite ?some_sp, ?some_sn).
      unfold h3, h2. by rewrite !pv_sn. }
    assert (Hbd : forall x, bd h6 x = bd hv x).
    { intros x. unfold h6, h5, h4, h3, h2. by rewrite !bd_sp, !bd_sn. }
    assert (Hr6 : rings ((tp, first) :: (lp, this) :: (fp, last) :: R) h6).
    { split.
      - repeat (apply Forall_cons_2; [split; simpl; rewrite ?Hnx6, ?Hpv6;
          repeat (first [rewrite decide_True by congruence|rewrite decide_False by congruence]); done|]).
        eapply (links_other R hv h6 [tp; fp; lp] [first; last; this]).
        + done.
        + intros x Hx. rewrite !not_elem_of_cons. split_and!; [..|apply not_elem_of_nil]; intros ->; done.
        + intros x Hx. rewrite !not_elem_of_cons. split_and!; [..|apply not_elem_of_nil]; intros ->; done.
        + intros x Hx. rewrite !not_elem_of_cons in Hx. destruct_and?. rewrite Hnx6. by rewrite !decide_False by done.
        + intros x Hx. rewrite !not_elem_of_cons in Hx. destruct_and?. rewrite Hpv6. by rewrite !decide_False by done.
      - simpl. split.
        + repeat (apply NoDup_cons; split); rewrite ?not_elem_of_cons; try done; split_and!; done || congruence.
        + etrans; [|etrans; [exact He|]]; perm_solve. }
    assert (Hin : forall x, x ∈ ((tp, this) :: (fp, first) :: (lp, last) :: R).*1 ->
      x ∈ ((tp, first) :: (lp, this) :: (fp, last) :: R).*1) by (clear; intros x; simpl; rewrite !elem_of_cons; tauto).
    rbind. eapply runs_check_ring; [done|done|by apply Hin|]. rbind. eapply runs_check_ring; [done|done|by apply Hin|].
    eapply runs_check_ring; [done|done|by apply Hin|].
    apply HQ; try done. unfold h6, h5, h4, h3, h2. by rewrite !dom_sp, !dom_sn.
  Qed.

  (** ** The other ring operations *)

  Ltac hs := first [eassumption | eapply heap_is_upd;
    [eassumption|repeat first [rewrite dom_sn|rewrite dom_sp]; reflexivity]].
  Ltac somes := repeat first [rewrite some_sn|rewrite some_sp]; eassumption.
  Ltac flds := repeat first [rewrite nx_sp|rewrite pv_sn|rewrite nx_sn by somes|rewrite pv_sp by somes
    |rewrite decide_True by congruence|rewrite decide_False by congruence]; try eassumption; try reflexivity.
  Ltac wn := eapply runs_set_next; [hs|somes|];
    try lazymatch goal with |- context [set_heap ?x (set_heap ?y ?w)] => change (set_heap x (set_heap y w)) with (set_heap x w) end.
  Ltac wp := eapply runs_set_prev; [hs|somes|];
    try lazymatch goal with |- context [set_heap ?x (set_heap ?y ?w)] => change (set_heap x (set_heap y w)) with (set_heap x w) end.
  Ltac rn := rbind; eapply runs_get_next; [hs|flds|].
  Ltac rp := rbind; eapply runs_get_prev; [hs|flds|].
  Ltac split_links :=
    repeat match goal with HH : Forall _ (_ :: _) |- _ => let a := fresh "Hlk" in
      apply Forall_cons in HH; destruct HH as [a HH]; simpl in a end;
    repeat match goal with HH : link _ _ _ |- _ => pose proof (link_some_l _ _ _ HH); pose proof (link_some_r _ _ _ HH);
      let a := fresh "Hnx" in let b := fresh "Hpv" in destruct HH as [a b] end;
    repeat match goal with HH : NoDup (_ :: _) |- _ => let a := fresh "Hni" in let b := fresh "Hnd" in
      apply NoDup_cons in HH; destruct HH as [a b]; rewrite ?not_elem_of_cons in a end;
    destruct_and?.
  Ltac ring_goal hv R F S Hnx Hpv :=
    repeat (apply Forall_cons_2; [split; simpl; rewrite ?Hnx, ?Hpv;
          repeat (first [rewrite decide_True by congruence|rewrite decide_False by congruence]); done|]);
    eapply (links_other R hv _ F S);
      [done
      |let x := fresh in let Hx := fresh in intros x Hx; rewrite ?not_elem_of_cons; split_and!; [..|apply not_elem_of_nil]; intros ->; done
      |let x := fresh in let Hx := fresh in intros x Hx; rewrite ?not_elem_of_cons; split_and!; [..|apply not_elem_of_nil]; intros ->; done
      |let x := fresh in let Hx := fresh in intros x Hx; rewrite ?not_elem_of_cons in Hx; destruct_and?; rewrite Hnx; by rewrite ?decide_False by done
      |let x := fresh in let Hx := fresh in intros x Hx; rewrite ?not_elem_of_cons in Hx; destruct_and?; rewrite Hpv; by rewrite ?decide_False by done].
  Ltac nodup_goal := repeat (apply NoDup_cons; split); rewrite ?not_elem_of_cons; try done; split_and!; done || congruence.

  Lemma runs_inject w hv hf ps this node np R (Q : _ -> W -> Prop) :
    heap_is w hv hf -> rings ps hv ->
    ps ≡ₚ (this, this) :: (np, node) :: R ->
    (forall hv', rings ((np, this) :: (this, node) :: R) hv' ->
       dom hv' = dom hv -> (forall x, bd hv' x = bd hv x) ->
       heap_is (set_heap (hv' ∪ hf) w) hv' hf -> Q tt (set_heap (hv' ∪ hf) w)) ->
    runs (inject cf this node) w Q.
  Proof.
    intros Hh Hr Hps HQ. apply (rings_perm _ _ _ Hps) in Hr. clear ps Hps.
    pose proof Hr as (Hf & Hn1 & He).
    assert (Hn2 : NoDup ((this, this) :: (np, node) :: R).*2) by by rewrite <-He.
    simpl in Hn1, Hn2, He. split_links.
    assert (Hin1 : this ∈ ((this, this) :: (np, node) :: R).*1) by (simpl; rewrite He, !elem_of_cons; tauto).
    assert (Hin2 : node ∈ ((this, this) :: (np, node) :: R).*1) by (simpl; rewrite He, !elem_of_cons; tauto).
    unfold inject.
    rbind. eapply runs_check_ring; [done..|]. rbind. eapply runs_check_ring; [done..|].
    rbind. wn. rp. rbind. wp. rp. rbind. wn. rbind. wp.
    set (h6 := sp node _ _).
    assert (Hh6 : heap_is (set_heap (h6 ∪ hf) w) h6 hf) by (unfold h6; hs).
    assert (Hnx6 : forall x, nx h6 x = if decide (x = np) then Some this else if decide (x = this) then Some node else nx hv x).
    { intros x. unfold h6. flds. }
    assert (Hpv6 : forall x, pv h6 x = if decide (x = node) then Some this else if decide (x = this) then Some np else pv hv x).
    { intros x. unfold h6. flds. }
    assert (Hbd : forall x, bd h6 x = bd hv x).
    { intros x. unfold h6. by rewrite ?bd_sp, ?bd_sn, ?bd_sp, ?bd_sn. }
    assert (Hdom : dom h6 = dom hv) by (unfold h6; repeat first [rewrite dom_sn|rewrite dom_sp]; done).
    clearbody h6.
    assert (Hr6 : rings ((np, this) :: (this, node) :: R) h6).
    { split; [|simpl; split].
      - ring_goal hv R [np; this] [node; this] Hnx6 Hpv6.
      - nodup_goal.
      - etrans; [|etrans; [exact He|]]; perm_solve. }
    assert (Hin : forall x, x ∈ ((this, this) :: (np, node) :: R).*1 ->
      x ∈ ((np, this) :: (this, node) :: R).*1) by (clear; intros x; simpl; rewrite !elem_of_cons; tauto).
    rbind. eapply runs_check_ring; [done|done|by apply Hin|].
    eapply runs_check_ring; [done|done|by apply Hin|]. by apply HQ.
  Qed.

  Lemma runs_remove w hv hf ps this p n R (Q : _ -> W -> Prop) :
    heap_is w hv hf -> rings ps hv ->
    ps ≡ₚ (p, this) :: (this, n) :: R ->
    (forall hv', rings ((p, n) :: R) hv' ->
       dom hv' = dom hv -> (forall x, bd hv' x = bd hv x) ->
       heap_is (set_heap (hv' ∪ hf) w) hv' hf -> Q tt (set_heap (hv' ∪ hf) w)) ->
    runs (node_remove cf this) w Q.
  Proof.
    intros Hh Hr Hps HQ. apply (rings_perm _ _ _ Hps) in Hr. clear ps Hps.
    pose proof Hr as (Hf & Hn1 & He).
    assert (Hn2 : NoDup ((p, this) :: (this, n) :: R).*2) by by rewrite <-He.
    simpl in Hn1, Hn2, He. split_links.
    assert (Hin1 : this ∈ ((p, this) :: (this, n) :: R).*1) by (simpl; rewrite !elem_of_cons; tauto).
    assert (Hin2 : p ∈ ((p, this) :: (this, n) :: R).*1) by (simpl; rewrite !elem_of_cons; tauto).
    assert (Hin3 : n ∈ ((p, this) :: (this, n) :: R).*1) by (simpl; rewrite He, !elem_of_cons; tauto).
    unfold node_remove.
    rbind. eapply runs_check_ring; [done..|]. rn.
    rbind. eapply runs_check_ring; [done..|]. rp.
    rbind. eapply runs_check_ring; [done..|].
    rbind. wn. rbind. wp.
    set (h6 := sp n _ _).
    assert (Hh6 : heap_is (set_heap (h6 ∪ hf) w) h6 hf) by (unfold h6; hs).
    assert (Hnx6 : forall x, nx h6 x = if decide (x = p) then Some n else nx hv x).
    { intros x. unfold h6. flds. }
    assert (Hpv6 : forall x, pv h6 x = if decide (x = n) then Some p else pv hv x).
    { intros x. unfold h6. flds. }
    assert (Hbd : forall x, bd h6 x = bd hv x).
    { intros x. unfold h6. by rewrite ?bd_sp, ?bd_sn. }
    assert (Hdom : dom h6 = dom hv) by (unfold h6; repeat first [rewrite dom_sn|rewrite dom_sp]; done).
    clearbody h6.
    assert (He' : p :: R.*1 ≡ₚ n :: R.*2).
    { change (list_fmap _ _ fst R) with (R.*1) in He. change (list_fmap _ _ snd R) with (R.*2) in He.
      apply (Permutation_cons_inv (a := this)). etrans; [|etrans; [exact He|]]; perm_solve. }
    assert (Hr6 : rings ((p, n) :: R) h6).
    { split; [|simpl; split].
      - ring_goal hv R [p] [n] Hnx6 Hpv6.
      - nodup_goal.
      - done. }
    rbind. eapply runs_check_ring; [done|done|simpl; rewrite He', !elem_of_cons; tauto|].
    eapply runs_check_ring; [done|done|simpl; rewrite !elem_of_cons; tauto|]. by apply HQ.
  Qed.

  Lemma rings_fst_inj ps h a b c : rings ps h -> (a, b) ∈ ps -> (a, c) ∈ ps -> b = c.
  Proof.
    intros (Hf & _) Hb Hc. rewrite Forall_forall in Hf.
    destruct (Hf _ Hb) as [Hb1 _], (Hf _ Hc) as [Hc1 _]. simpl in *. congruence.
  Qed.

  (** swap of two headers, by cases on which ring has nodes *)
  Lemma runs_swap_both w hv hf ps l r ln lp rn rp R (Q : _ -> W -> Prop) :
    heap_is w hv hf -> rings ps hv -> 
    ps ≡ₚ (l, ln) :: (lp, l) :: (r, rn) :: (rp, r) :: R ->
    (forall hv', rings ((l, rn) :: (rp, l) :: (r, ln) :: (lp, r) :: R) hv' ->
       dom hv' = dom hv -> (forall x, bd hv' x = bd hv x) ->
       heap_is (set_heap (hv' ∪ hf) w) hv' hf -> Q tt (set_heap (hv' ∪ hf) w)) ->
    runs (swap_nodes cf l r) w Q.
  Proof.
    intros Hh Hr Hps HQ. apply (rings_perm _ _ _ Hps) in Hr. clear ps Hps.
    pose proof Hr as (Hf & Hn1 & He).
    assert (Hn2 : NoDup ((l, ln) :: (lp, l) :: (r, rn) :: (rp, r) :: R).*2) by by rewrite <-He.
    simpl in Hn1, Hn2, He. split_links.
    assert (Hin1 : l ∈ ((l, ln) :: (lp, l) :: (r, rn) :: (rp, r) :: R).*1) by (simpl; rewrite !elem_of_cons; tauto).
    assert (Hin2 : r ∈ ((l, ln) :: (lp, l) :: (r, rn) :: (rp, r) :: R).*1) by (simpl; rewrite !elem_of_cons; tauto).
    unfold swap_nodes.
    rbind. eapply runs_check_ring; [done..|]. rbind. eapply runs_check_ring; [done..|].
    rn. rn. rewrite !decide_True by congruence.
    rbind. rbind. wn. rbind. wn. rp. rp. rbind. wp. rbind. wp. rp. rbind. wn. rn. rbind. wp. rp. rbind. wn. rn. wp.
    set (h6 := sp ln _ _).
    assert (Hh6 : heap_is (set_heap (h6 ∪ hf) w) h6 hf) by (unfold h6; hs).
    assert (Hnx6 : forall x, nx h6 x = if decide (x = lp) then Some r else if decide (x = rp) then Some l
      else if decide (x = r) then Some ln else if decide (x = l) then Some rn else nx hv x).
    { intros x. unfold h6. flds. }
    assert (Hpv6 : forall x, pv h6 x = if decide (x = ln) then Some r else if decide (x = rn) then Some l
      else if decide (x = r) then Some lp else if decide (x = l) then Some rp else pv hv x).
    { intros x. unfold h6. flds. }
    assert (Hbd : forall x, bd h6 x = bd hv x).
    { intros x. unfold h6. repeat first [rewrite bd_sp|rewrite bd_sn]. done. }
    assert (Hdom : dom h6 = dom hv) by (unfold h6; repeat first [rewrite dom_sn|rewrite dom_sp]; done).
    clearbody h6.
    assert (Hr6 : rings ((l, rn) :: (rp, l) :: (r, ln) :: (lp, r) :: R) h6).
    { split; [|simpl; split].
      - ring_goal hv R [l; rp; r; lp] [rn; l; ln; r] Hnx6 Hpv6.
      - nodup_goal.
      - etrans; [|etrans; [exact He|]]; perm_solve. }
    rbind. eapply runs_check_ring; [done|done|simpl; rewrite !elem_of_cons; tauto|].
    eapply runs_check_ring; [done|done|simpl; rewrite !elem_of_cons; tauto|]. by apply HQ.
  Qed.

  Lemma runs_swap_left w hv hf ps l r ln lp R (Q : _ -> W -> Prop) :
    heap_is w hv hf -> rings ps hv -> 
    ps ≡ₚ (l, ln) :: (lp, l) :: (r, r) :: R ->
    (forall hv', rings ((l, l) :: (r, ln) :: (lp, r) :: R) hv' ->
       dom hv' = dom hv -> (forall x, bd hv' x = bd hv x) ->
       heap_is (set_heap (hv' ∪ hf) w) hv' hf -> Q tt (set_heap (hv' ∪ hf) w)) ->
    runs (swap_nodes cf l r) w Q.
  Proof.
    intros Hh Hr Hps HQ. apply (rings_perm _ _ _ Hps) in Hr. clear ps Hps.
    pose proof Hr as (Hf & Hn1 & He).
    assert (Hn2 : NoDup ((l, ln) :: (lp, l) :: (r, r) :: R).*2) by by rewrite <-He.
    simpl in Hn1, Hn2, He. split_links.
    assert (Hin1 : l ∈ ((l, ln) :: (lp, l) :: (r, r) :: R).*1) by (simpl; rewrite !elem_of_cons; tauto).
    assert (Hin2 : r ∈ ((l, ln) :: (lp, l) :: (r, r) :: R).*1) by (simpl; rewrite !elem_of_cons; tauto).
    unfold swap_nodes.
    rbind. eapply runs_check_ring; [done..|]. rbind. eapply runs_check_ring; [done..|].
    rn. rn. rewrite (decide_True _ _ (P := ln ≠ l)) by congruence. rewrite decide_False by congruence.
    rbind. rbind. wn. rp. rbind. wp. rp. rbind. wn. rn. rbind. wp. rbind. wp. wn.
    set (h6 := sn l l _).
    assert (Hh6 : heap_is (set_heap (h6 ∪ hf) w) h6 hf) by (unfold h6; hs).
    assert (Hnx6 : forall x, nx h6 x = if decide (x = l) then Some l else if decide (x = lp) then Some r
      else if decide (x = r) then Some ln else nx hv x).
    { intros x. unfold h6. flds. }
    assert (Hpv6 : forall x, pv h6 x = if decide (x = l) then Some l else if decide (x = ln) then Some r
      else if decide (x = r) then Some lp else pv hv x).
    { intros x. unfold h6. flds. }
    assert (Hbd : forall x, bd h6 x = bd hv x).
    { intros x. unfold h6. repeat first [rewrite bd_sp|rewrite bd_sn]. done. }
    assert (Hdom : dom h6 = dom hv) by (unfold h6; repeat first [rewrite dom_sn|rewrite dom_sp]; done).
    clearbody h6.
    assert (Hr6 : rings ((l, l) :: (r, ln) :: (lp, r) :: R) h6).
    { split; [|simpl; split].
      - ring_goal hv R [l; r; lp] [l; ln; r] Hnx6 Hpv6.
      - nodup_goal.
      - etrans; [|etrans; [exact He|]]; perm_solve. }
    rbind. eapply runs_check_ring; [done|done|simpl; rewrite !elem_of_cons; tauto|].
    eapply runs_check_ring; [done|done|simpl; rewrite !elem_of_cons; tauto|]. by apply HQ.
  Qed.

  Lemma runs_swap_right w hv hf ps l r rn rp R (Q : _ -> W -> Prop) :
    heap_is w hv hf -> rings ps hv -> 
    ps ≡ₚ (l, l) :: (r, rn) :: (rp, r) :: R ->
    (forall hv', rings ((l, rn) :: (rp, l) :: (r, r) :: R) hv' ->
       dom hv' = dom hv -> (forall x, bd hv' x = bd hv x) ->
       heap_is (set_heap (hv' ∪ hf) w) hv' hf -> Q tt (set_heap (hv' ∪ hf) w)) ->
    runs (swap_nodes cf l r) w Q.
  Proof.
    intros Hh Hr Hps HQ. apply (rings_perm _ _ _ Hps) in Hr. clear ps Hps.
    pose proof Hr as (Hf & Hn1 & He).
    assert (Hn2 : NoDup ((l, l) :: (r, rn) :: (rp, r) :: R).*2) by by rewrite <-He.
    simpl in Hn1, Hn2, He. split_links.
    assert (Hin1 : l ∈ ((l, l) :: (r, rn) :: (rp, r) :: R).*1) by (simpl; rewrite !elem_of_cons; tauto).
    assert (Hin2 : r ∈ ((l, l) :: (r, rn) :: (rp, r) :: R).*1) by (simpl; rewrite !elem_of_cons; tauto).
    unfold swap_nodes.
    rbind. eapply runs_check_ring; [done..|]. rbind. eapply runs_check_ring; [done..|].
    rn. rn. rewrite (decide_False _ _ (P := l ≠ l)) by congruence. rewrite decide_True by congruence.
    rbind. rbind. wn. rp. rbind. wp. rp. rbind. wn. rn. rbind. wp. rbind. wp. wn.
    set (h6 := sn r r _).
    assert (Hh6 : heap_is (set_heap (h6 ∪ hf) w) h6 hf) by (unfold h6; hs).
    assert (Hnx6 : forall x, nx h6 x = if decide (x = r) then Some r else if decide (x = rp) then Some l
      else if decide (x = l) then Some rn else nx hv x).
    { intros x. unfold h6. flds. }
    assert (Hpv6 : forall x, pv h6 x = if decide (x = r) then Some r else if decide (x = rn) then Some l
      else if decide (x = l) then Some rp else pv hv x).
    { intros x. unfold h6. flds. }
    assert (Hbd : forall x, bd h6 x = bd hv x).
    { intros x. unfold h6. repeat first [rewrite bd_sp|rewrite bd_sn]. done. }
    assert (Hdom : dom h6 = dom hv) by (unfold h6; repeat first [rewrite dom_sn|rewrite dom_sp]; done).
    clearbody h6.
    assert (Hr6 : rings ((l, rn) :: (rp, l) :: (r, r) :: R) h6).
    { split; [|simpl; split].
      - ring_goal hv R [l; r; rp] [l; rn; r] Hnx6 Hpv6.
      - nodup_goal.
      - etrans; [|etrans; [exact He|]]; perm_solve. }
    rbind. eapply runs_check_ring; [done|done|simpl; rewrite !elem_of_cons; tauto|].
    eapply runs_check_ring; [done|done|simpl; rewrite !elem_of_cons; tauto|]. by apply HQ.
  Qed.

  Lemma runs_swap_none w hv hf ps l r R (Q : _ -> W -> Prop) :
    heap_is w hv hf -> rings ps hv -> 
    ps ≡ₚ (l, l) :: (r, r) :: R -> Q tt w ->
    runs (swap_nodes cf l r) w Q.
  Proof.
    intros Hh Hr Hps HQ. apply (rings_perm _ _ _ Hps) in Hr. clear ps Hps.
    pose proof Hr as (Hf & Hn1 & He).
    assert (Hn2 : NoDup ((l, l) :: (r, r) :: R).*2) by by rewrite <-He.
    simpl in Hn1, Hn2, He. split_links.
    assert (Hin1 : l ∈ ((l, l) :: (r, r) :: R).*1) by (simpl; rewrite !elem_of_cons; tauto).
    assert (Hin2 : r ∈ ((l, l) :: (r, r) :: R).*1) by (simpl; rewrite !elem_of_cons; tauto).
    unfold swap_nodes.
    rbind. eapply runs_check_ring; [done..|]. rbind. eapply runs_check_ring; [done..|].
    rn. rn. rewrite !decide_False by congruence.
    rbind. apply runs_ret.
    rbind. eapply runs_check_ring; [done..|]. by eapply runs_check_ring.
  Qed.
End cells.
