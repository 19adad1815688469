(** * Moving and swapping trees *)
From Verif Require Export RbCopy.

(** Look up in an updated heap. *)
Ltac hl := simpl; repeat first [rewrite lookup_insert | rewrite lookup_insert_ne by done].

(** Keep the world of the goal a constructor. *)
Ltac nw := unfold set_heap; cbn [w_heap w_orc w_err w_allocs w_ctors].

Section move.
  Context {V : Type} {L : limit} (cf : cfg V) (comp : V -> V -> bool).
  Notation H := (gmap addr (tcell V)).
  Notation W := (world (tcell V)).
  Notation E := (addr * V)%type.
  Implicit Types h hf : H.
  Implicit Types w : W.
  Implicit Types t s : tree V.
  Implicit Types n : nat.
  Implicit Types o p : tset.
  Implicit Types xs ys : list E.
  Notation addrs t := (elems t).*1.
  Notation sin := (sin comp).
  Notation full hd t := (hcell (root t) (first_of hd (elems t)) (last_of hd (elems t)) (length (elems t))).

  (** [h] is [hf] and two tree objects. *)
  Record two (al : alloc_id) (ho hp : addr) t s h hf : Prop := Two {
    two_ho : h !! ho = Some (full ho t);
    two_hp : h !! hp = Some (full hp s);
    two_t : tree_at al h ho t;
    two_s : tree_at al h hp s;
    two_nodup : NoDup (ho :: hp :: addrs t ++ addrs s);
    two_out : forall a, a ∉ ho :: hp :: addrs t ++ addrs s -> h !! a = hf !! a;
    two_none : forall a, a ∈ ho :: hp :: addrs t ++ addrs s -> hf !! a = None
  }.

  Lemma two_sym al ho hp t s h hf : two al ho hp t s h hf -> two al hp ho s t h hf.
  Proof.
    intros [H1 H2 H3 H4 H5 H6 H7].
    assert (ho :: hp :: addrs t ++ addrs s ≡ₚ hp :: ho :: addrs s ++ addrs t) as Hp by perm_solve.
    split; try done.
    - by rewrite <-Hp.
    - intros a Ha. apply H6. by rewrite Hp.
    - intros a Ha. apply H7. by rewrite Hp.
  Qed.

  Lemma two_intro o p xs ys hv h hf t :
    t_alloc o = t_alloc p ->
    sin o xs h (hv ∪ hf) t -> set_own comp (t_alloc p) (t_hdr p) ys hv -> hv ##ₘ hf ->
    exists s, elems s = ys /\ rb s /\ two (t_alloc o) (t_hdr o) (t_hdr p) t s h hf.
  Proof.
    intros Hal ([Hh Ht Hn Hout Hnone] & He & Hrb & Ha) (Hasc & s & Hs & Hsh & Hst & Hsn & Hdom & Hsrb) Hd.
    exists s. split; [done|]. split; [done|].
    assert (forall a, a ∈ t_hdr p :: addrs s -> h !! a = hv !! a) as Hin.
    { intros a Hx. apply Hdom in Hx as [c Hc]. 
      assert ((hv ∪ hf) !! a = Some c) as Hu by (by apply lookup_union_Some_l).
      rewrite Hout; [by rewrite Hu, Hc|]. intros Hx. apply Hnone in Hx. congruence. }
    assert (forall a, a ∈ t_hdr p :: addrs s -> a ∉ t_hdr o :: addrs t) as Hdisj.
    { intros a Hx Hx'. apply Hdom in Hx as [c Hc]. apply Hnone in Hx'. apply lookup_union_None in Hx' as [? _]. congruence. }
    assert (t_hdr o :: t_hdr p :: addrs t ++ addrs s ≡ₚ (t_hdr o :: addrs t) ++ (t_hdr p :: addrs s)) as Hp by perm_solve.
    rewrite <-He in *. split.
    - exact Hh.
    - rewrite Hin by set_solver. exact Hsh.
    - exact Ht.
    - rewrite Hal. eapply tat_ext; [|exact Hst]. intros a Hx. apply Hin. by right.
    - rewrite Hp. apply NoDup_app. split_and!; [done| |done]. intros a Hx Hx'. by eapply Hdisj.
    - intros a Hx. rewrite Hp in Hx. rewrite Hout by set_solver. apply lookup_union_r.
      apply eq_None_not_Some. rewrite Hdom. set_solver.
    - intros a Hx. rewrite Hp in Hx. apply elem_of_app in Hx as [Hx|Hx].
      + apply Hnone in Hx. by apply lookup_union_None in Hx as [_ ?].
      + apply Hdom in Hx as [c Hc]. by eapply map_disjoint_Some_l.
  Qed.

  Lemma two_elim o p t s h hf :
    t_alloc o = t_alloc p -> rb t -> rb s -> asc comp (elems t) -> asc comp (elems s) ->
    two (t_alloc o) (t_hdr o) (t_hdr p) t s h hf ->
    exists hv, set_own comp (t_alloc p) (t_hdr p) (elems s) hv /\ hv ##ₘ hf /\ sin o (elems t) h (hv ∪ hf) t.
  Proof.
    intros Hal Hrb Hrb' Ha Ha' [H1 H2 H3 H4 H5 H6 H7].
    set (hv := filter (fun q : addr * tcell V => q.1 ∈ t_hdr p :: addrs s) h).
    assert (forall a, a ∈ t_hdr p :: addrs s -> hv !! a = h !! a) as Hin.
    { intros a Hx. unfold hv. rewrite map_filter_lookup. destruct (h !! a) eqn:E; simpl; [|done].
      by rewrite option_guard_True. }
    assert (forall a, a ∉ t_hdr p :: addrs s -> hv !! a = None) as Hnin.
    { intros a Hx. unfold hv. rewrite map_filter_lookup. destruct (h !! a) eqn:E; simpl; [|done].
      by rewrite option_guard_False. }
    assert (forall a, a ∈ t_hdr p :: addrs s -> is_Some (h !! a)) as Hsome.
    { intros a [->|Hx]%elem_of_cons; [by rewrite H2|]. eapply tat_some; [exact H4|]. done. }
    assert (t_hdr o :: t_hdr p :: addrs t ++ addrs s ≡ₚ (t_hdr o :: addrs t) ++ (t_hdr p :: addrs s)) as Hp by perm_solve.
    rewrite Hp in H5. apply NoDup_app in H5 as (Hn1 & Hdisj & Hn2).
    assert (forall a, a ∈ t_hdr p :: addrs s -> hf !! a = None) as Hnone2.
    { intros a Hx. apply H7. rewrite Hp. set_solver. }
    exists hv. split_and!.
    - split; [by apply asc_ascending|]. exists s. split; [done|]. split_and!.
      + rewrite Hin by set_solver. exact H2.
      + eapply tat_ext; [|rewrite <-Hal; exact H4]. intros a Hx. apply Hin. by right.
      + done.
      + intros a. split.
        * intros [c Hc]. destruct (decide (a ∈ t_hdr p :: addrs s)) as [|Hx]; [done|]. by rewrite Hnin in Hc.
        * intros Hx. rewrite Hin by done. auto.
      + done.
    - apply map_disjoint_spec. intros a c c' Hc Hc'. destruct (decide (a ∈ t_hdr p :: addrs s)) as [Hx|Hx].
      + by rewrite Hnone2 in Hc'.
      + by rewrite Hnin in Hc.
    - split; [|done]. split; [exact H1|done|done| |].
      + intros a Hx. destruct (decide (a ∈ t_hdr p :: addrs s)) as [Hx'|Hx'].
        * destruct (Hsome a Hx') as [c Hc]. rewrite Hc. symmetry. apply lookup_union_Some_l. by rewrite Hin.
        * rewrite lookup_union_r by auto. apply H6. rewrite Hp. set_solver.
      + intros a Hx. apply lookup_union_None. split.
        * apply Hnin. by apply Hdisj.
        * apply H7. rewrite Hp. set_solver.
  Qed.

  Lemma ends_ne ho hp xs : xs <> [] -> first_of ho xs = first_of hp xs /\ last_of ho xs = last_of hp xs.
  Proof.
    intros Hx. destruct xs as [|x xs] using rev_ind; [done|]. unfold first_of, last_of. rewrite fmap_app. csimpl.
    rewrite last_snoc. split; [|done]. by destruct (xs.*1).
  Qed.

  (** ** Moving *)

  Lemma move_data_spec al o p s hf w (Q : unit -> W -> Prop) :
    s <> Leaf -> two al (t_hdr o) (t_hdr p) Leaf s (w_heap w) hf ->
    (forall h', two al (t_hdr o) (t_hdr p) s Leaf h' hf -> Q tt (set_heap h' w)) ->
    runs (move_data o p) w Q.
  Proof.
    intros Hs [H1 H2 H3 H4 H5 H6 H7] HQ. simpl in H5, H6, H7. destruct s as [|c a v l r]; [done|]. clear Hs.
    set (s := Node c a v l r) in *. pose proof H4 as (Ha & _).
    assert (NoDup (addrs s) /\ t_hdr o <> t_hdr p /\ t_hdr o ∉ addrs s /\ t_hdr p ∉ addrs s) as (Hns & Hop & Hos & Hps).
    { apply NoDup_cons in H5 as [Ho H5]. apply NoDup_cons in H5 as [Hp H5]. split_and!; try done; set_solver. }
    assert (a ∈ addrs s) as Has. { unfold s. simpl. rewrite fmap_app. csimpl. set_solver. }
    assert (t_hdr o <> a) by congruence. assert (t_hdr p <> a) by congruence.
    unfold move_data, t_end.
    rbind. eapply runs_root; [exact H2|].
    rbind. eapply runs_set_root; [exact H1|]. nw.
    rbind. eapply (runs_get_lm (t_hdr p)); [simpl; rewrite lookup_insert_ne by done; exact H2|].
    rbind. eapply (runs_set_lm (t_hdr o)); [simpl; apply lookup_insert|]. nw.
    rbind. eapply (runs_get_rm (t_hdr p)); [simpl; rewrite !lookup_insert_ne by done; exact H2|].
    rbind. eapply (runs_set_rm (t_hdr o)); [simpl; apply lookup_insert|]. nw. simpl. rewrite !insert_insert.
    rbind. unfold parent_of. rbind. eapply runs_root; [simpl; apply lookup_insert|]. simpl root. apply runs_deref.
    rbind. eapply (runs_set_parent al DL); [simpl; rewrite lookup_insert_ne by done; exact Ha|]. nw. simpl.
    rbind. eapply runs_set_root; [simpl; rewrite !lookup_insert_ne by done; exact H2|]. nw.
    rbind. eapply (runs_set_lm (t_hdr p)); [simpl; apply lookup_insert|]. nw.
    rbind. eapply (runs_set_rm (t_hdr p)); [simpl; apply lookup_insert|]. nw.
    rbind. eapply runs_get_count; [simpl; apply lookup_insert|]. simpl. rewrite !insert_insert.
    rbind. eapply runs_set_count.
    { simpl. rewrite (lookup_insert_ne _ (t_hdr p)), (lookup_insert_ne _ a) by done. apply lookup_insert. }
    nw. eapply runs_set_count; [simpl; rewrite lookup_insert_ne by done; apply lookup_insert|]. nw. unfold set_heap; simpl.
    set (h' := <[t_hdr p := _]> (<[t_hdr o := _]> _)).
    assert (h' !! t_hdr o = Some (full (t_hdr o) s)) as Ho'.
    { unfold h'. rewrite lookup_insert_ne by done. rewrite lookup_insert.
      change (Some (hcell (V:=V) (root s) (first_of (t_hdr p) (elems s)) (last_of (t_hdr p) (elems s)) (length (elems s))) = Some (full (t_hdr o) s)).
      destruct (ends_ne (t_hdr p) (t_hdr o) (elems s)) as [-> ->]; [|done]. intros Hnil. rewrite Hnil in Has. csimpl in Has. by apply elem_of_nil in Has. }
    assert (h' !! a = Some (ncell al c (t_hdr o) (root l) (root r) v)) as Ha'.
    { unfold h'. rewrite (lookup_insert_ne _ (t_hdr p)), (lookup_insert_ne _ (t_hdr o)), (lookup_insert_ne _ (t_hdr p)) by done. apply lookup_insert. }
    assert (forall x, x <> t_hdr o -> x <> t_hdr p -> x <> a -> h' !! x = w_heap w !! x) as Hx'.
    { intros x ? ? ?. unfold h'. by rewrite !lookup_insert_ne by done. }
    apply HQ. split.
    - exact Ho'.
    - unfold h'. by rewrite lookup_insert.
    - eapply tat_ext; [|exact (repar_tat al _ (t_hdr o) _ _ Hns H4)]. intros x Hx. simpl.
      destruct (decide (x = a)) as [->|Hne]; [by rewrite lookup_insert|].
      rewrite (lookup_insert_ne _ a) by done. apply Hx'; congruence.
    - done.
    - by rewrite app_nil_r.
    - rewrite app_nil_r. intros x Hx. rewrite !not_elem_of_cons in Hx. destruct Hx as (? & ? & ?). rewrite Hx'; [|congruence..]. apply H6. by rewrite !not_elem_of_cons.
    - by rewrite app_nil_r.
  Qed.

  (** The heap [h] is [hf] and the sets [o] and [p]. *)
  Definition pair_is o xs p ys h hf : Prop :=
    exists hv t, set_own comp (t_alloc p) (t_hdr p) ys hv /\ hv ##ₘ hf /\ sin o xs h (hv ∪ hf) t.

  Lemma pair_two o xs p ys h hf :
    t_alloc o = t_alloc p -> pair_is o xs p ys h hf ->
    exists t s, elems t = xs /\ elems s = ys /\ rb t /\ rb s /\ asc comp xs /\ asc comp ys /\
      two (t_alloc o) (t_hdr o) (t_hdr p) t s h hf.
  Proof.
    intros Hal (hv & t & Hown & Hd & Hs). destruct (two_intro _ _ _ _ _ _ _ _ Hal Hs Hown Hd) as (s & Hes & Hrs & H2).
    destruct Hs as (_ & Het & Hrt & Ha). exists t, s. split_and!; try done. apply asc_ascending. apply Hown.
  Qed.
  Lemma two_pair o p t s h hf :
    t_alloc o = t_alloc p -> rb t -> rb s -> asc comp (elems t) -> asc comp (elems s) ->
    two (t_alloc o) (t_hdr o) (t_hdr p) t s h hf -> pair_is o (elems t) p (elems s) h hf.
  Proof.
    intros. edestruct (two_elim o p t s) as (hv & ? & ? & ?); try done. by exists hv, t.
  Qed.
  Lemma rb_leaf : rb (@Leaf V).
  Proof. split_and!; [done|done|by exists 0]. Qed.

  Lemma move_assign_spec o p xs ys hf w (Q : unit -> W -> Prop) :
    t_alloc o = t_alloc p -> pair_is o xs p ys (w_heap w) hf ->
    (forall h', pair_is o ys p [] h' hf -> Q tt (set_heap h' w)) ->
    runs (t_move_assign o p) w Q.
  Proof.
    intros Hal (hv & t & Hown & Hd & Hs) HQ. unfold t_move_assign.
    rbind. eapply clear_spec; [exact Hs|]. intros h' Hs'.
    destruct (pair_two o [] p ys h' hf Hal) as (t' & s' & Het & Hes & Hrt & Hrs & Hat & Has & H2); [by exists hv, Leaf|].
    assert (t' = Leaf) as ->. { destruct t' as [|? ? ? ll ?]; [done|]. simpl in Het. by destruct (elems ll). }
    pose proof (two_hp _ _ _ _ _ _ _ H2) as Hh.
    rbind. eapply runs_root; [exact Hh|]. destruct s' as [|c x v l r] eqn:Es; simpl root; cbv iota.
    - apply runs_ret. subst ys. apply HQ. simpl. by exists hv, Leaf.
    - rewrite <-Es in *. eapply move_data_spec; [|exact H2|]; [by rewrite Es|]. intros h'' H2'. unfold set_heap; simpl. apply HQ.
      subst ys. apply (two_pair o p s' Leaf); [done|done|apply rb_leaf|done|done|done].
  Qed.

  Lemma move_ctor_spec p ys t hf w (Q : tset -> W -> Prop) :
    sin p ys (w_heap w) hf t ->
    (forall a h', w_heap w !! a = None -> pair_is (TSet (t_alloc p) a) ys p [] h' hf ->
       Q (TSet (t_alloc p) a) (set_heap h' w)) ->
    runs (t_move_ctor p) w Q.
  Proof.
    intros Hs HQ. unfold t_move_ctor. rbind. apply (new_spec comp). intros a h' Hfa Hs'.
    assert (pair_is (TSet (t_alloc p) a) [] p ys h' hf) as Hp.
    { destruct (proj2 (set_is_sin comp p ys hf w)) as (hv & Hown & Hw & Hd); [by exists t|].
      exists hv, Leaf. split_and!; [done|done|]. by rewrite <-Hw. }
    destruct (pair_two (TSet (t_alloc p) a) [] p ys h' hf eq_refl Hp) as (t' & s' & Het & Hes & Hrt & Hrs & Hat & Has & H2).
    assert (t' = Leaf) as ->. { destruct t' as [|? ? ? ll ?]; [done|]. simpl in Het. by destruct (elems ll). }
    pose proof (two_hp _ _ _ _ _ _ _ H2) as Hh.
    rbind. eapply runs_root; [exact Hh|]. destruct s' as [|c x v l r] eqn:Es; simpl root; cbv iota.
    - rbind. apply runs_ret. apply runs_ret. subst ys. by apply HQ.
    - rewrite <-Es in *. rbind. eapply move_data_spec; [|exact H2|]; [by rewrite Es|]. intros h'' H2'. apply runs_ret.
      unfold set_heap; simpl. apply HQ; [done|].
      subst ys. apply (two_pair (TSet (t_alloc p) a) p s' Leaf); [done|done|apply rb_leaf|done|done|done].
  Qed.

  (** ** Swapping *)

  (** both headers written, then both roots *)
  Lemma two_swapped al ho hp t s h h' hf :
    two al ho hp t s h hf ->
    h' !! ho = Some (full ho s) -> h' !! hp = Some (full hp t) ->
    (forall a, a <> ho -> a <> hp -> h' !! a = repar al ho s (repar al hp t h) !! a) ->
    two al ho hp s t h' hf.
  Proof.
    intros [H1 H2 H3 H4 H5 H6 H7] Ho Hp Hx.
    assert (ho :: hp :: addrs t ++ addrs s ≡ₚ ho :: hp :: addrs s ++ addrs t) as Hperm by perm_solve.
    assert (forall a, a ∈ addrs t -> a <> ho /\ a <> hp /\ a ∉ addrs s) as Ht.
    { intros a Ha. apply NoDup_cons in H5 as [Hn1 H5]. apply NoDup_cons in H5 as [Hn2 H5].
      apply NoDup_app in H5 as (_ & Hd & _). split_and!; [| |by apply Hd].
      - intros ->. apply Hn1. right. mem_in Ha.
      - intros ->. apply Hn2. mem_in Ha. }
    assert (forall a, a ∈ addrs s -> a <> ho /\ a <> hp /\ a ∉ addrs t) as Hs.
    { intros a Ha. apply NoDup_cons in H5 as [Hn1 H5]. apply NoDup_cons in H5 as [Hn2 H5].
      apply NoDup_app in H5 as (_ & Hd & _). split_and!.
      - intros ->. apply Hn1. right. mem_in Ha.
      - intros ->. apply Hn2. mem_in Ha.
      - intros Ha'. by apply (Hd a). }
    assert (NoDup (addrs t) /\ NoDup (addrs s)) as [Hnt Hns].
    { apply NoDup_cons in H5 as [_ H5]. apply NoDup_cons in H5 as [_ H5]. by apply NoDup_app in H5 as (? & _ & ?). }
    split; [done|done| | |by rewrite <-Hperm| |].
    - eapply tat_ext; [|apply (repar_tat al hp ho s h Hns H4)]. intros a Ha. destruct (Hs a Ha) as (? & ? & ?).
      rewrite Hx by done. destruct s as [|c x v l r]; [by apply not_elem_of_nil in Ha|]. simpl. destruct (decide (a = x)) as [->|Hne]; [by rewrite !lookup_insert|].
      rewrite !(lookup_insert_ne _ x) by done. by apply repar_ne.
    - eapply tat_ext; [|apply (repar_tat al ho hp t h Hnt H3)]. intros a Ha. destruct (Ht a Ha) as (? & ? & ?).
      rewrite Hx by done. by apply repar_ne.
    - intros a Ha. rewrite <-Hperm in Ha. rewrite <-H6 by done.
      rewrite !not_elem_of_cons, not_elem_of_app in Ha. destruct Ha as (? & ? & ? & ?).
      rewrite Hx by done. rewrite !repar_ne by done. done.
    - intros a Ha. rewrite <-Hperm in Ha. by apply H7.
  Qed.

  Lemma swap_two_spec al o p t s hf w (Q : unit -> W -> Prop) :
    two al (t_hdr o) (t_hdr p) t s (w_heap w) hf ->
    (forall h', two al (t_hdr o) (t_hdr p) s t h' hf -> Q tt (set_heap h' w)) ->
    runs (t_swap o p) w Q.
  Proof.
    intros H2 HQ. pose proof H2 as [Ho Hp Ht Hs Hn Hout Hnone].
    assert (t_hdr o <> t_hdr p) as Hop. { apply NoDup_cons in Hn as [Hn _]. intros Heq. apply Hn. rewrite Heq. by left. }
    assert (forall a, a ∈ addrs t ++ addrs s -> t_hdr o <> a /\ t_hdr p <> a) as Hne.
    { intros a Ha. apply NoDup_cons in Hn as [Hn1 Hn]. apply NoDup_cons in Hn as [Hn2 _]. split; intros <-; [apply Hn1; by right|by apply Hn2]. }
    unfold t_swap, t_end.
    rbind. eapply runs_root; [exact Ho|]. rbind. eapply runs_root; [exact Hp|].
    destruct t as [|ct at_ vt lt rt] eqn:Et; destruct s as [|cs as_ vs ls rs] eqn:Es; simpl root; cbv iota.
    - rbind. apply runs_ret. rbind. eapply runs_get_count; [exact Ho|]. rbind. eapply runs_get_count; [exact Hp|].
      rbind. eapply runs_set_count; [exact Ho|]. nw. eapply runs_set_count; [simpl; rewrite lookup_insert_ne by done; exact Hp|]. nw.
      unfold set_heap; simpl. rewrite !insert_id; [| by rewrite Ho |by rewrite insert_id]. by apply HQ.
    - destruct (Hne as_) as [Hoa Hpa]. { apply elem_of_app. right. simpl. rewrite fmap_app. csimpl. mem. }
      pose proof Hs as (Ha & _).
      rbind. rbind. eapply runs_set_root; [exact Ho|]. nw.
      rbind. eapply (runs_get_lm (t_hdr p)); [hl; exact Hp|].
      rbind. eapply (runs_set_lm (t_hdr o)); [hl; done|]. nw.
      rbind. eapply (runs_get_rm (t_hdr p)); [hl; exact Hp|].
      rbind. eapply (runs_set_rm (t_hdr o)); [hl; done|]. nw.
      rbind. unfold parent_of. rbind. eapply runs_root; [hl; done|]. apply runs_deref.
      rbind. eapply (runs_set_parent al DL); [hl; exact Ha|]. nw.
      rbind. eapply runs_set_root; [hl; exact Hp|]. nw.
      rbind. eapply (runs_set_lm (t_hdr p)); [hl; done|]. nw.
      eapply (runs_set_rm (t_hdr p)); [hl; done|]. nw.
      rbind. eapply runs_get_count; [hl; done|]. rbind. eapply runs_get_count; [hl; done|].
      rbind. eapply runs_set_count; [hl; done|]. nw. eapply runs_set_count; [hl; done|]. nw.
      nw. apply HQ. eapply two_swapped; [exact H2| | |].
      + hl. destruct (ends_ne (t_hdr p) (t_hdr o) (elems ls ++ (as_, vs) :: elems rs)) as [-> ->]; [by destruct (elems ls)|done].
      + hl. done.
      + intros a Ha1 Ha2. simpl. destruct (decide (a = as_)) as [->|Hn']; hl; done.
    - destruct (Hne at_) as [Hoa Hpa]. { apply elem_of_app. left. simpl. rewrite fmap_app. csimpl. mem. }
      pose proof Ht as (Ha & _).
      rbind. rbind. eapply runs_set_root; [exact Hp|]. nw.
      rbind. eapply (runs_get_lm (t_hdr o)); [hl; exact Ho|].
      rbind. eapply (runs_set_lm (t_hdr p)); [hl; done|]. nw.
      rbind. eapply (runs_get_rm (t_hdr o)); [hl; exact Ho|].
      rbind. eapply (runs_set_rm (t_hdr p)); [hl; done|]. nw.
      rbind. unfold parent_of. rbind. eapply runs_root; [hl; done|]. apply runs_deref.
      rbind. eapply (runs_set_parent al DL); [hl; exact Ha|]. nw.
      rbind. eapply runs_set_root; [hl; exact Ho|]. nw.
      rbind. eapply (runs_set_lm (t_hdr o)); [hl; done|]. nw.
      eapply (runs_set_rm (t_hdr o)); [hl; done|]. nw.
      rbind. eapply runs_get_count; [hl; done|]. rbind. eapply runs_get_count; [hl; done|].
      rbind. eapply runs_set_count; [hl; done|]. nw. eapply runs_set_count; [hl; done|]. nw.
      nw. apply HQ. eapply two_swapped; [exact H2| | |].
      + hl. done.
      + hl. destruct (ends_ne (t_hdr o) (t_hdr p) (elems lt ++ (at_, vt) :: elems rt)) as [-> ->]; [by destruct (elems lt)|done].
      + intros a Ha1 Ha2. simpl. destruct (decide (a = at_)) as [->|Hn']; hl; done.
    - destruct (Hne as_) as [Hoa Hpa]. { apply elem_of_app. right. simpl. rewrite fmap_app. csimpl. mem. }
      destruct (Hne at_) as [Hoa' Hpa']. { apply elem_of_app. left. simpl. rewrite fmap_app. csimpl. mem. }
      assert (at_ <> as_) as Hta.
      { apply NoDup_cons in Hn as [_ Hn]. apply NoDup_cons in Hn as [_ Hn]. apply NoDup_app in Hn as (_ & Hn & _).
        intros ->. apply (Hn as_); simpl; rewrite fmap_app; csimpl; mem. }
      pose proof Hs as (Ha & _). pose proof Ht as (Ha' & _).
      rbind. rbind. eapply runs_set_root; [exact Ho|]. nw.
      rbind. eapply runs_set_root; [hl; exact Hp|]. nw.
      rbind. eapply (runs_get_lm (t_hdr o)); [hl; done|].
      rbind. eapply (runs_get_lm (t_hdr p)); [hl; done|].
      rbind. eapply (runs_set_lm (t_hdr o)); [hl; done|]. nw.
      rbind. eapply (runs_set_lm (t_hdr p)); [hl; done|]. nw.
      rbind. eapply (runs_get_rm (t_hdr o)); [hl; done|].
      rbind. eapply (runs_get_rm (t_hdr p)); [hl; done|].
      rbind. eapply (runs_set_rm (t_hdr o)); [hl; done|]. nw.
      rbind. eapply (runs_set_rm (t_hdr p)); [hl; done|]. nw.
      rbind. unfold parent_of. rbind. eapply runs_root; [hl; done|]. apply runs_deref.
      rbind. eapply (runs_set_parent al DL); [hl; exact Ha|]. nw.
      rbind. rbind. eapply runs_root; [hl; done|]. apply runs_deref.
      eapply (runs_set_parent al DL); [hl; exact Ha'|]. nw.
      rbind. eapply runs_get_count; [hl; done|]. rbind. eapply runs_get_count; [hl; done|].
      rbind. eapply runs_set_count; [hl; done|]. nw. eapply runs_set_count; [hl; done|]. nw.
      nw. apply HQ. eapply two_swapped; [exact H2| | |].
      + hl. destruct (ends_ne (t_hdr p) (t_hdr o) (elems ls ++ (as_, vs) :: elems rs)) as [-> ->]; [by destruct (elems ls)|done].
      + hl. destruct (ends_ne (t_hdr o) (t_hdr p) (elems lt ++ (at_, vt) :: elems rt)) as [-> ->]; [by destruct (elems lt)|done].
      + intros a Ha1 Ha2. simpl. destruct (decide (a = as_)) as [->|Hn']; [hl; done|].
        destruct (decide (a = at_)) as [->|Hn'']; hl; done.
  Qed.

  Lemma swap_spec o p xs ys hf w (Q : unit -> W -> Prop) :
    t_alloc o = t_alloc p -> pair_is o xs p ys (w_heap w) hf ->
    (forall h', pair_is o ys p xs h' hf -> Q tt (set_heap h' w)) ->
    runs (t_swap o p) w Q.
  Proof.
    intros Hal Hp HQ. destruct (pair_two _ _ _ _ _ _ Hal Hp) as (t & s & <- & <- & Hrt & Hrs & Hat & Has & H2).
    eapply swap_two_spec; [exact H2|]. intros h' H2'. apply HQ. by apply two_pair.
  Qed.

  Lemma swap_self_spec o xs t hf w (Q : unit -> W -> Prop) :
    sin o xs (w_heap w) hf t -> Q tt w -> runs (t_swap o o) w Q.
  Proof.
    intros Hs HQ. pose proof (sin_hdr _ _ _ _ _ _ Hs) as Ho. unfold t_swap, t_end.
    assert (forall h, h = w_heap w -> Q tt (set_heap h w)) as HQ'. { intros ? ->. by destruct w. }
    rbind. eapply runs_root; [exact Ho|]. rbind. eapply runs_root; [exact Ho|].
    destruct t as [|c a v l r] eqn:Et; simpl root; cbv iota.
    - rbind. apply runs_ret. rbind. eapply runs_get_count; [exact Ho|]. rbind. eapply runs_get_count; [exact Ho|].
      rbind. eapply runs_set_count; [exact Ho|]. nw. eapply runs_set_count; [hl; done|]. nw. simpl. rewrite insert_insert.
      unfold set_heap; simpl. rewrite insert_id by exact Ho. by apply HQ'.
    - destruct Hs as ([_ Ht Hn _ _] & _). pose proof Ht as (Ha & _).
      assert (t_hdr o <> a) as Hoa.
      { apply NoDup_cons in Hn as [Hn _]. intros <-. apply Hn. simpl. rewrite fmap_app. csimpl. mem. }
      rbind. rbind. eapply runs_set_root; [exact Ho|]. nw.
      rbind. eapply runs_set_root; [hl; done|]. nw.
      rbind. eapply (runs_get_lm (t_hdr o)); [hl; done|].
      rbind. eapply (runs_get_lm (t_hdr o)); [hl; done|].
      rbind. eapply (runs_set_lm (t_hdr o)); [hl; done|]. nw.
      rbind. eapply (runs_set_lm (t_hdr o)); [hl; done|]. nw.
      rbind. eapply (runs_get_rm (t_hdr o)); [hl; done|].
      rbind. eapply (runs_get_rm (t_hdr o)); [hl; done|].
      rbind. eapply (runs_set_rm (t_hdr o)); [hl; done|]. nw.
      rbind. eapply (runs_set_rm (t_hdr o)); [hl; done|]. nw. simpl. rewrite !insert_insert.
      rbind. unfold parent_of. rbind. eapply runs_root; [hl; done|]. apply runs_deref.
      rbind. eapply (runs_set_parent (t_alloc o) DL); [hl; exact Ha|]. nw.
      rbind. rbind. eapply runs_root; [hl; done|]. apply runs_deref.
      eapply (runs_set_parent (t_alloc o) DL); [hl; done|]. nw.
      rbind. eapply runs_get_count; [hl; done|]. rbind. eapply runs_get_count; [hl; done|].
      rbind. eapply runs_set_count; [hl; done|]. nw. eapply runs_set_count; [hl; done|]. nw.
      unfold set_heap; simpl. apply HQ'. apply map_eq. intros x.
      destruct (decide (x = t_hdr o)) as [->|]; [hl; done|]. destruct (decide (x = a)) as [->|]; hl; done.
  Qed.
End move.
