(** * Histories over vectors of vectors: proofs *)
From Verif Require Export NestHistSpec NestOps.

#[global] Arguments vec_index : simpl never.
#[global] Arguments vec_at : simpl never.
#[global] Arguments g_resize : simpl never.
#[global] Arguments g_shrink_to_fit : simpl never.
#[global] Arguments g_clear : simpl never.
#[global] Arguments g_copy_assign : simpl never.

Section hist.
  Context {T : Type} (lc : nat -> cfg (val T)) (ex : bool).
  Notation W := (world (vblock (val T))).
  Notation H := (gmap addr (vblock (val T))).
  Implicit Types (w : W) (hv hf hs h : H).
  Hypothesis Hlc : forall d, cfg_ok (lc d).
  Notation nown d := (nvec_owns (lc d) (obj_owns lc d)).

  (** ** Reading *)

  Lemma nown_at d v xs cap h k w : nown d v xs cap h -> h ⊆ w_heap w -> k < length xs ->
    exists x y hk, xs !! k = Some y /\ vec_at (lc d) v k w = Done x w /\ obj_owns lc d x y hk /\ hk ⊆ h.
  Proof.
    intros (vs & hb & hs & Ho & Ha & Hd & ->) Hsub Hk. rewrite <-(all_own_length _ _ _ _ Ha) in Hk.
    destruct (lookup_lt_is_Some_2 _ _ Hk) as [x Hx].
    destruct (all_own_focus _ _ _ _ _ _ Ha Hx) as (y & h1 & h2 & Hy & Hxy & Hd12 & -> & _).
    exists x, y, h1. split; [done|]. split; [|split; [done|]].
    - destruct (runs_at (lc d) v vs cap hb k x w (fun a w2 => a = x /\ w2 = w)) as (a & w2 & Hrd & -> & ->); try done.
      etrans; [|exact Hsub]. apply map_union_subseteq_l.
    - etrans; [|by apply map_union_subseteq_r]. apply map_union_subseteq_l.
  Qed.

  Lemma nread_spec d v x h w : obj_owns lc d v x h -> h ⊆ w_heap w -> nread lc d v w = Done x w.
  Proof.
    revert v x h. induction d as [|d IH]; intros v x h Ho Hsub.
    - destruct Ho as (t & -> & -> & ->). done.
    - destruct Ho as (o & xs & cap & -> & -> & Ho). simpl.
      assert (Hsz : vec_size o w = Done (length xs) w).
      { destruct (nowns_size (lc d) (obj_owns lc d) o xs cap h w (fun a w2 => a = length xs /\ w2 = w)) as (a & w2 & Hrd & -> & ->); done. }
      unfold bind. rewrite Hsz.
      match goal with |- context [(?F (length xs) w)] => set (go := F) end.
      assert (Hgo : forall k, k <= length xs -> go k w = Done (take k xs) w).
      { induction k as [|k IHk]; intros Hk; [done|].
        destruct (nown_at d o xs cap h k w Ho Hsub) as (u & y & hk & Hy & Hat & Hu & Hk'); [lia|].
        change (go (S k) w) with (bind (go k) (fun l => bind (vec_at (lc d) o k) (fun x => bind (nread lc d x) (fun y => ret (l ++ [y])))) w).
        unfold bind. rewrite IHk by lia. rewrite Hat. rewrite (IH u y hk Hu) by (by etrans).
        unfold ret. by erewrite take_S_r by done. }
      rewrite Hgo by done. by rewrite take_ge by done.
  Qed.

  Lemma runs_locate d p v xs cap h w (Q : _ -> W -> Prop) :
    nown d v xs cap h -> h ⊆ w_heap w -> length p <= d ->
    (dget p (DList xs) = None -> Q None w) ->
    (forall u ys capu hu, dget p (DList xs) = Some (DList ys) -> nown (d - length p) u ys capu hu -> hu ⊆ h -> Q (Some u) w) ->
    runs (locate lc d p v) w Q.
  Proof.
    revert d v xs cap h. induction p as [|k p IH]; intros d v xs cap h Ho Hsub Hp Hno Hyes; simpl in *.
    - apply runs_ret. rewrite Nat.sub_0_r in Hyes. by eapply Hyes.
    - rbind. eapply nowns_size; [done|]. case_decide as Hk.
      + destruct (nown_at d v xs cap h k w Ho Hsub Hk) as (x & y & hk & Hy & Hat & Hx & Hsk).
        rbind. eapply runs_eq; [exact Hat|]. destruct d as [|d]; [lia|].
        destruct Hx as (o & ys & capo & -> & -> & Hoo). simpl. rbind. apply runs_ret.
        rewrite Hy in Hno, Hyes. simpl in Hno, Hyes.
        eapply (IH d o ys capo hk); [done|by etrans|lia|done|].
        intros u zs capu hu Hg Hu Hsu. eapply Hyes; [done|done|by etrans].
      + apply runs_ret. apply Hno. rewrite lookup_ge_None_2 by lia. done.
  Qed.

  (** ** Changing in place *)

  Definition fspec (d : nat) (f : nat -> vec_obj -> M (vblock (val T)) vec_obj) (hs : H)
      (R : list (deep T) -> option error -> list (deep T) -> Prop) : Prop :=
    forall u l cap h hf w, nown d u l cap h -> heap_is w h hf -> w_err w = None -> hs ⊆ hf ->
      runs (f d u) w (fun u' w' => exists l' cap' h', nown d u' l' cap' h' /\ heap_is w' h' hf /\
        R l (w_err w') l' /\ (m_allocator u = c_dflt (lc d) -> m_allocator u' = c_dflt (lc d))).

  (** One index down: element [k], taken out of the vector; the other elements
      are in the rest [hr] of the heap. *)
  Lemma runs_at_step d k v xs cap h hf w :
    nown (S d) v xs cap h -> heap_is w h hf -> k < length xs ->
    exists u ys capu h1 hr, xs !! k = Some (DList ys) /\ nown d u ys capu h1 /\ heap_is w h1 hr /\ hf ⊆ hr /\
      vec_at (lc (S d)) v k w = Done (VVec u) w /\
      (forall k2 y, k2 <> k -> xs !! k2 = Some y -> exists x h2,
         vec_at (lc (S d)) v k2 w = Done x w /\ obj_owns lc (S d) x y h2 /\ h2 ⊆ hr) /\
      forall p f (S' : list (deep T) -> option error -> Prop),
        runs (at_path lc d p u f) w (fun u' w' => exists ys' capu' h1',
          nown d u' ys' capu' h1' /\ heap_is w' h1' hr /\ S' ys' (w_err w')) ->
        runs (at_path lc (S d) (k :: p) v f) w (fun v' w' => v' = v /\ exists ys' h',
          nown (S d) v (<[k:=DList ys']> xs) cap h' /\ heap_is w' h' hf /\ S' ys' (w_err w')).
  Proof.
    intros Ho Hh Hk.
    assert (Hsz : forall (Q : _ -> W -> Prop), Q (length xs) w -> runs (vec_size v) w Q) by (intros; by eapply nowns_size).
    assert (Hsub : h ⊆ w_heap w) by (destruct Hh as [-> _]; apply map_union_subseteq_l).
    assert (Hat : forall q, q < length xs -> exists x y hq, xs !! q = Some y /\ vec_at (lc (S d)) v q w = Done x w /\ obj_owns lc (S d) x y hq /\ hq ⊆ h)
      by (intros; by eapply nown_at).
    apply nowns_inv in Ho as [(_ & _ & _ & -> & _)|(b & vs & hvs & Hst & Hfi & Hen & Hle & Hc & Hown & Hb & ->)]; [simpl in *; lia|].
    pose proof (all_own_length _ _ _ _ Hown) as Hlen.
    assert (Hkv : k < length vs) by lia.
    destruct (lookup_lt_is_Some_2 _ _ Hkv) as [x Hx].
    destruct Hh as [Hw Hd]. apply map_disjoint_insert_l in Hd as [Hbf Hd].
    set (blk := Block (m_allocator v) cap cap (map_seq 0 vs)) in *.
    assert (Hwb : w_heap w !! b = Some blk).
    { rewrite Hw. apply lookup_union_Some_l. apply lookup_insert. }
    assert (Hidx : forall q z (Q : _ -> W -> Prop), vs !! q = Some z -> Q (Ptr b q) w -> runs (vec_index (lc (S d)) v q) w Q).
    { intros q z Q Hz HQ. apply lookup_lt_Some in Hz. unfold vec_index. rbind. apply Hsz.
      rbind. apply runs_assert; [apply bool_decide_eq_true; lia|].
      rewrite Hst. eapply runs_padd; [exact Hwb|simpl; lia|]. done. }
    assert (Hrd : forall q z (Q : _ -> W -> Prop), vs !! q = Some z -> Q z w -> runs (read (Ptr b q)) w Q).
    { intros q z Q Hz HQ. pose proof (lookup_lt_Some _ _ _ Hz). eapply runs_read; [exact Hwb|simpl; lia|simpl; by rewrite lookup_map_seq_0|done]. }
    assert (Hatv : forall q z, vs !! q = Some z -> vec_at (lc (S d)) v q w = Done z w).
    { intros q z Hz. destruct (Hidx q z (fun p w2 => p = Ptr b q /\ w2 = w)) as (a1 & w1 & H1 & -> & ->); [done|done|].
      destruct (Hrd q z (fun p w2 => p = z /\ w2 = w)) as (a2 & w2 & H2 & -> & ->); [done|done|].
      unfold vec_at, bind. by rewrite H1. }
    destruct (all_own_hole _ _ _ _ _ _ Hown Hx) as (y & h1 & h2 & Hy & Hxy & Hd12 & -> & Hupd).
    destruct Hxy as (u & ys & capu & -> & -> & Hu).
    apply lookup_union_None in Hb as [Hb1 Hb2]. apply map_disjoint_union_l in Hd as [Hd1 Hd2].
    assert (Hd3 : <[b:=blk]> h2 ##ₘ hf) by (by apply map_disjoint_insert_l).
    exists u, ys, capu, h1, (<[b:=blk]> h2 ∪ hf). split_and!.
    - done.
    - done.
    - split; [rewrite Hw, (assoc_L (∪)); f_equal; by rewrite insert_union_r|].
      apply map_disjoint_union_r. split; [by apply map_disjoint_insert_r|done].
    - by apply map_union_subseteq_r.
    - by apply Hatv.
    - intros k2 y2 Hne Hy2. assert (Hk2 : k2 < length vs) by (rewrite Hlen; by eapply lookup_lt_Some).
      destruct (lookup_lt_is_Some_2 _ _ Hk2) as [x2 Hx2]. exists x2.
      (* the fragment of another element is in the hole's rest *)
      assert (Hin : exists h3, obj_owns lc (S d) x2 y2 h3 /\ h3 ⊆ h2).
      { assert (Hrow : all_own (obj_owns lc (S d)) (<[k:=VVec (vec_new (m_allocator v))]> vs) (<[k:=DList []]> xs) (∅ ∪ h2)).
        { apply Hupd; [|apply map_disjoint_empty_l]. exists (vec_new (m_allocator v)), [], 0. split_and!; [done|done|apply nowns_new]. }
        destruct (all_own_focus _ _ _ _ k2 x2 Hrow) as (y3 & h3 & h4 & Hy3 & Ho3 & _ & Heq & _).
        { by rewrite list_lookup_insert_ne. }
        rewrite list_lookup_insert_ne in Hy3 by done. simplify_eq. exists h3. split; [done|].
        rewrite (left_id_L ∅ (∪)) in Heq. rewrite Heq. apply map_union_subseteq_l. }
      destruct Hin as (h3 & Ho3 & Hs3). exists h3. split_and!; [by apply Hatv|done|].
      etrans; [exact Hs3|]. etrans; [|apply map_union_subseteq_l]. by apply insert_subseteq.
    - intros p f S' Hrun. simpl. rbind. apply Hsz. rewrite decide_True by done.
      rbind. eapply Hidx; [done|]. rbind. eapply Hrd; [done|]. simpl. rbind. apply runs_ret. rbind.
      eapply runs_mono; [exact Hrun|].
      intros u' w1 (ys' & capu' & h1' & Hu' & [Hw1 Hd1'] & Hp).
      apply map_disjoint_union_r in Hd1' as [Hd1' Hd1'']. apply map_disjoint_insert_r in Hd1' as [Hb1' Hd1'].
      set (blk' := Block (m_allocator v) cap cap (map_seq 0 (<[k:=VVec u']> vs))).
      rbind. eapply (runs_overwrite w1 b k (VVec u') (VVec u) blk).
      { rewrite Hw1. apply lookup_union_Some_r; [apply map_disjoint_union_r; split; [by apply map_disjoint_insert_r|done]|].
        apply lookup_union_Some_l. apply lookup_insert. }
      { simpl. lia. }
      { simpl. by rewrite lookup_map_seq_0. }
      apply runs_ret. simpl.
      assert (Hms : <[k:=VVec u']> (map_seq 0 vs : gmap nat (val T)) = map_seq 0 (<[k:=VVec u']> vs)).
      { apply map_seq_live. intros q. destruct (decide (q = k)) as [->|].
        - rewrite lookup_insert, list_lookup_insert; done.
        - rewrite lookup_insert_ne, list_lookup_insert_ne by done. apply lookup_map_seq_0. }
      rewrite Hms. fold blk'. split; [done|].
      exists ys', (<[b:=blk']> (h1' ∪ h2)). split; [|split; [|done]].
      + apply nowns_block; simpl; try done.
        * rewrite insert_length. done.
        * by rewrite insert_length.
        * apply Hupd; [|done]. by exists u', ys', capu'.
        * by apply lookup_union_None.
      + split; simpl.
        * rewrite Hw1. rewrite (assoc_L (∪)), <-(insert_union_r h1' h2 b blk) by done.
          by rewrite insert_union_l, insert_insert.
        * apply map_disjoint_insert_l. split; [done|]. by apply map_disjoint_union_l.
  Qed.

  (** What a call on the vector along [p] does, for the whole variable. *)
  Definition ppost d p (R : list (deep T) -> option error -> list (deep T) -> Prop) v xs hf (v' : vec_obj) w' : Prop :=
    exists xs' cap' h', nown (d + length p) v' xs' cap' h' /\ heap_is w' h' hf /\
      on_path p R (DList xs) (w_err w') (DList xs') /\
      (m_allocator v = c_dflt (lc (d + length p)) -> m_allocator v' = c_dflt (lc (d + length p))).

  Lemma ppost_none d k p R v xs cap h hf w :
    nown (d + length (k :: p)) v xs cap h -> heap_is w h hf -> w_err w = None -> length xs <= k ->
    ppost d (k :: p) R v xs hf v w.
  Proof.
    intros Ho Hh He Hk. exists xs, cap, h. split_and!; try done. simpl. rewrite lookup_ge_None_2 by lia. by rewrite He.
  Qed.

  Lemma runs_at_path d p f hs R v xs cap h hf w :
    fspec d f hs R -> nown (d + length p) v xs cap h -> heap_is w h hf -> w_err w = None -> hs ⊆ hf ->
    runs (at_path lc (d + length p) p v f) w (ppost d p R v xs hf).
  Proof.
    intros Hf. revert v xs cap h hf w. induction p as [|k p IH]; intros v xs cap h hf w Ho Hh He Hs.
    - unfold ppost. simpl. rewrite Nat.add_0_r in *. eapply runs_mono; [by eapply Hf|].
      intros u' w' (l' & cap' & h' & ? & ? & ? & ?). exists l', cap', h'. split_and!; try done. by exists l'.
    - destruct (decide (k < length xs)) as [Hk|Hk].
      2:{ assert (Hn : nown (d + length (k :: p)) v xs cap h) by done.
          simpl in Ho. rewrite <-plus_n_Sm in Ho. simpl. rewrite <-plus_n_Sm. simpl. rbind. eapply nowns_size; [done|].
          rewrite decide_False by done. apply runs_ret. eapply ppost_none; [done..|lia]. }
      unfold ppost. simpl in *. rewrite <-plus_n_Sm in *.
      destruct (runs_at_step (d + length p) k v xs cap h hf w Ho Hh Hk) as (u & ys & capu & h1 & hr & Hy & Hu & Hh1 & Hsr & _ & _ & Hstep).
      eapply runs_mono; [apply (Hstep p f (fun ys' e => on_path p R (DList ys) e (DList ys')))|].
      + eapply runs_mono; [eapply (IH u ys capu h1 hr); [done|done|done|by etrans]|].
        intros u' w' (xs' & cap' & h' & ? & ? & ? & _). by exists xs', cap', h'.
      + intros v' w' (-> & ys' & h' & Ho' & Hh' & Hp). eexists _, cap, h'. split_and!; [done|apply Hh'..| |done].
        simpl. rewrite Hy. by eexists.
  Qed.

  (** The same when the call uses the vector [o] along another path [q] of the
      same variable. *)
  Lemma runs_at_path_other d p q f R v xs cap h hf o lo w :
    nown (d + length p) v xs cap h -> heap_is w h hf -> w_err w = None ->
    length q = length p -> q <> p ->
    locate lc (d + length p) q v w = Done (Some o) w -> dget q (DList xs) = Some (DList lo) ->
    (forall capo ho, nown d o lo capo ho -> fspec d f ho R) ->
    runs (at_path lc (d + length p) p v f) w (ppost d p R v xs hf).
  Proof.
    revert q v xs cap h hf. induction p as [|k p IH]; intros q v xs cap h hf Ho Hh He Hlen Hne Hloc Hget Hf.
    { by destruct q. }
    destruct q as [|k2 q]; [done|]. simpl in Hlen.
    destruct (decide (k < length xs)) as [Hk|Hk].
    2:{ assert (Hn : nown (d + length (k :: p)) v xs cap h) by done.
        simpl in Ho. rewrite <-plus_n_Sm in Ho. simpl. rewrite <-plus_n_Sm. simpl. rbind. eapply nowns_size; [done|].
        rewrite decide_False by done. apply runs_ret. eapply ppost_none; [done..|lia]. }
    unfold ppost. simpl in *. rewrite <-plus_n_Sm in *.
    destruct (runs_at_step (d + length p) k v xs cap h hf w Ho Hh Hk) as (u & ys & capu & h1 & hr & Hy & Hu & Hh1 & Hsr & Hatk & Hoth & Hstep).
    assert (Hk2 : k2 < length xs).
    { destruct (xs !! k2) eqn:Hx2; [by eapply lookup_lt_Some|done]. }
    assert (Hsz : vec_size v w = Done (length xs) w).
    { destruct (nowns_size (lc (S (d + length p))) (obj_owns lc (S (d + length p))) v xs cap h w (fun a w2 => a = length xs /\ w2 = w)) as (a & w2 & Hrd & -> & ->); done. }
    unfold bind in Hloc. rewrite Hsz, decide_True in Hloc by done.
    eapply runs_mono; [apply (Hstep p f (fun ys' e => on_path p R (DList ys) e (DList ys')))|].
    - destruct (decide (k2 = k)) as [->|Hkk].
      + rewrite Hatk in Hloc. simpl in Hloc. unfold ret in Hloc. rewrite Hy in Hget. simpl in Hget.
        eapply runs_mono; [eapply (IH q u ys capu h1 hr); [done..|lia| |done|done|done]|]; [congruence|].
        intros u' w' (xs' & cap' & h' & ? & ? & ? & _). by exists xs', cap', h'.
      + destruct (lookup_lt_is_Some_2 _ _ Hk2) as [y2 Hy2]. rewrite Hy2 in Hget. simpl in Hget.
        destruct (Hoth k2 y2 Hkk Hy2) as (x2 & h2 & Hat2 & Hx2 & Hs2). rewrite Hat2 in Hloc.
        destruct Hx2 as (u2 & ys2 & cap2 & -> & -> & Hu2). simpl in Hloc. unfold ret in Hloc.
        assert (Hsub2 : h2 ⊆ w_heap w). { etrans; [exact Hs2|]. destruct Hh1 as [-> ?]. by apply map_union_subseteq_r. }
        assert (Hex : exists capo ho, nown d o lo capo ho /\ ho ⊆ h2).
        { destruct (runs_locate (d + length p) q u2 ys2 cap2 h2 w (fun r w2 => w2 = w /\ match r with None => dget q (DList ys2) = None | Some x => exists l capo ho, dget q (DList ys2) = Some (DList l) /\ nown d x l capo ho /\ ho ⊆ h2 end))
            as (r & w2 & Hr & -> & Hm); [done|done|lia|done| |].
          - intros x l capo ho Hg Hx Hsx. split; [done|]. exists l, capo, ho. split_and!; [done| |done].
            replace (d + length p - length q) with d in Hx by lia. done.
          - rewrite Hloc in Hr. injection Hr as <-. destruct Hm as (l & capo & ho & Hg & Hx & Hsx). rewrite Hget in Hg. injection Hg as <-.
            by exists capo, ho. }
        destruct Hex as (capo & ho & Hoo & Hso).
        eapply runs_mono; [eapply (runs_at_path d p f ho R u ys capu h1 hr); [by eapply Hf|done|done|done|by etrans]|].
        intros u' w' (xs' & cap' & h' & ? & ? & ? & _). by exists xs', cap', h'.
    - intros v' w' (-> & ys' & h' & Ho' & Hh' & Hp). eexists _, cap, h'. split_and!; [done|apply Hh'..| |done].
      simpl. rewrite Hy. by eexists.
  Qed.

  (** ... and when it uses the vector itself. *)
  Lemma runs_at_path_self d p f R v xs cap h hf o lo w :
    nown (d + length p) v xs cap h -> heap_is w h hf -> w_err w = None ->
    locate lc (d + length p) p v w = Done (Some o) w -> dget p (DList xs) = Some (DList lo) ->
    (forall capo ho hf w, nown d o lo capo ho -> heap_is w ho hf -> w_err w = None ->
      runs (f d o) w (fun u' w' => exists l' cap' h', nown d u' l' cap' h' /\ heap_is w' h' hf /\
        R lo (w_err w') l' /\ (m_allocator o = c_dflt (lc d) -> m_allocator u' = c_dflt (lc d)))) ->
    runs (at_path lc (d + length p) p v f) w (ppost d p R v xs hf).
  Proof.
    revert v xs cap h hf. induction p as [|k p IH]; intros v xs cap h hf Ho Hh He Hloc Hget Hf.
    { unfold ppost. simpl in *. rewrite Nat.add_0_r in *. unfold ret in Hloc. injection Hloc as <-. injection Hget as <-.
      eapply runs_mono; [by eapply Hf|].
      intros u' w' (l' & cap' & h' & ? & ? & ? & ?). exists l', cap', h'. split_and!; try done. by exists l'. }
    destruct (decide (k < length xs)) as [Hk|Hk].
    2:{ simpl in Hget. by rewrite lookup_ge_None_2 in Hget by lia. }
    unfold ppost. simpl in *. rewrite <-plus_n_Sm in *.
    destruct (runs_at_step (d + length p) k v xs cap h hf w Ho Hh Hk) as (u & ys & capu & h1 & hr & Hy & Hu & Hh1 & Hsr & Hatk & Hoth & Hstep).
    assert (Hsz : vec_size v w = Done (length xs) w).
    { destruct (nowns_size (lc (S (d + length p))) (obj_owns lc (S (d + length p))) v xs cap h w (fun a w2 => a = length xs /\ w2 = w)) as (a & w2 & Hrd & -> & ->); done. }
    unfold bind in Hloc. rewrite Hsz, decide_True, Hatk in Hloc by done. simpl in Hloc. unfold ret in Hloc.
    rewrite Hy in Hget. simpl in Hget.
    eapply runs_mono; [apply (Hstep p f (fun ys' e => on_path p R (DList ys) e (DList ys')))|].
    - eapply runs_mono; [by eapply (IH u ys capu h1 hr)|].
      intros u' w' (xs' & cap' & h' & ? & ? & ? & _). by exists xs', cap', h'.
    - intros v' w' (-> & ys' & h' & Ho' & Hh' & Hp). eexists _, cap, h'. split_and!; [done|apply Hh'..| |done].
      simpl. rewrite Hy. by eexists.
  Qed.

  (** ** One call on a row *)

  Notation rown := (all_own (nvar_own lc)).

  (** v_i, taken out of the row. *)
  Definition npost (vs : list (nat * vec_obj)) (xs : list (deep T)) hf (S : list (deep T) -> option error -> list (deep T) -> Prop)
      (vs' : list (nat * vec_obj)) w' : Prop :=
    exists xs' hv', rown vs' xs' hv' /\ heap_is w' hv' hf /\ S xs (w_err w') xs' /\ vs'.*1 = vs.*1.

  Lemma runs_on_var vs xs hv hf i p d f R w :
    rown vs xs hv -> heap_is w hv hf -> elem_depth (vs.*1) i p d ->
    (forall v l cap h1 hr, vs !! i = Some v -> xs !! i = Some (DList l) -> v.1 = d + length p -> nown (d + length p) v.2 l cap h1 ->
       heap_is w h1 hr -> hf ⊆ hr ->
       (forall j o y, j <> i -> vs !! j = Some o -> xs !! j = Some y -> exists hj, nvar_own lc o y hj /\ hj ⊆ hr) ->
       runs (at_path lc (d + length p) p v.2 f) w (ppost d p R v.2 l hr)) ->
    runs (on_var lc vs i p f) w (npost vs xs hf (on_nvar i p R)).
  Proof.
    intros Hr [Hw Hd] (di & Hi & ->) Hrun. rewrite list_lookup_fmap in Hi.
    destruct (vs !! i) as [v|] eqn:Hv; [|done]. simplify_eq/=.
    destruct (all_own_hole _ _ _ _ _ _ Hr Hv) as (x & h1 & hr & Hx & Ho & Hd12 & -> & Hupd).
    apply map_disjoint_union_l in Hd as [Hd1 Hd2].
    unfold on_var, with_var. rewrite Hv.
    destruct v as [dv v]. simpl in *. subst dv. destruct Ho as (Hal & l & cap & -> & Ho). simpl in *.
    rbind. eapply runs_mono; [apply (Hrun (d + length p, v) l cap h1 (hr ∪ hf)); [done..| | |]|].
    - split; [by rewrite Hw, (assoc_L (∪))|]. by apply map_disjoint_union_r.
    - by apply map_union_subseteq_r.
    - intros j o y Hne Hj Hy.
      assert (Hrow : rown (<[i:=(d + length p, vec_new (c_dflt (lc (d + length p))))]> vs) (<[i:=DList []]> xs) (∅ ∪ hr)).
      { apply Hupd; [|apply map_disjoint_empty_l]. split; [done|]. exists [], 0. split; [done|]. apply nowns_new. }
      destruct (all_own_focus _ _ _ _ j o Hrow) as (y3 & h3 & h4 & Hy3 & Ho3 & _ & Heq & _).
      { by rewrite list_lookup_insert_ne. }
      rewrite list_lookup_insert_ne in Hy3 by done. simplify_eq. exists h3. split; [done|].
      rewrite (left_id_L ∅ (∪)) in Heq. rewrite Heq. etrans; [|apply map_union_subseteq_l]. apply map_union_subseteq_l.
    - intros u w' (l' & cap' & h' & Ho' & [Hw' Hd'] & Hp & Hal'). apply runs_ret.
      apply map_disjoint_union_r in Hd' as [Hd1' Hd2'].
      exists (<[i:=DList l']> xs), (h' ∪ hr). split; [|split; [|split]].
      + apply Hupd; [|done]. split; [by apply Hal'|]. by exists l', cap'.
      + split; [by rewrite Hw', (assoc_L (∪))|]. by apply map_disjoint_union_l.
      + unfold on_nvar. rewrite Hx. by exists (DList l').
      + rewrite list_fmap_insert. simpl. apply list_insert_id. rewrite list_lookup_fmap, Hv. done.
  Qed.

  Lemma runs_on_alone vs xs hv hf i p d f R w :
    rown vs xs hv -> heap_is w hv hf -> w_err w = None -> elem_depth (vs.*1) i p d -> fspec d f ∅ R ->
    runs (on_var lc vs i p f) w (npost vs xs hf (on_nvar i p R)).
  Proof.
    intros Hr Hh He Hi Hf. eapply runs_on_var; [done..|].
    intros v l cap h1 hr Hv Hx Hd Ho Hh1 Hs _. eapply runs_at_path; [done..|]. apply map_empty_subseteq.
  Qed.

  Lemma nlocated d v l cap h q w o lo :
    nown (d + length q) v l cap h -> h ⊆ w_heap w ->
    locate lc (d + length q) q v w = Done (Some o) w -> dget q (DList l) = Some (DList lo) ->
    exists capo ho, nown d o lo capo ho /\ ho ⊆ h.
  Proof.
    intros Ho Hsub Hloc Hget.
    destruct (runs_locate (d + length q) q v l cap h w (fun r w2 => w2 = w /\ match r with None => dget q (DList l) = None | Some x => exists l2 capo ho, dget q (DList l) = Some (DList l2) /\ nown d x l2 capo ho /\ ho ⊆ h end))
      as (r & w2 & Hr & -> & Hm); [done|done|lia|done| |].
    - intros x l2 capo ho Hg Hx Hsx. split; [done|]. exists l2, capo, ho. split_and!; [done| |done].
      replace (d + length q - length q) with d in Hx by lia. done.
    - rewrite Hloc in Hr. injection Hr as <-. destruct Hm as (l2 & capo & ho & Hg & Hx & Hsx). rewrite Hget in Hg. injection Hg as <-.
      by exists capo, ho.
  Qed.

  (** A call that uses the vector [u] at v_j[q]. *)
  Definition fself d (f : nat -> vec_obj -> M (vblock (val T)) vec_obj) o lo (R : list (deep T) -> option error -> list (deep T) -> Prop) : Prop :=
    forall capo ho hf w, nown d o lo capo ho -> heap_is w ho hf -> w_err w = None ->
      runs (f d o) w (fun u' w' => exists l' cap' h', nown d u' l' cap' h' /\ heap_is w' h' hf /\
        R lo (w_err w') l' /\ (m_allocator o = c_dflt (lc d) -> m_allocator u' = c_dflt (lc d))).

  Definition nsource (vs : list (nat * vec_obj)) (xs : list (deep T)) (j : nat) (q : list nat) (u : vec_obj) (l : list (deep T)) (w : W) : Prop :=
    exists o, vs !! j = Some o /\ locate lc o.1 q o.2 w = Done (Some u) w /\ xs !! j ≫= dget q = Some (DList l).

  Lemma runs_on_source vs xs hv hf i p d j q f R u l w :
    rown vs xs hv -> heap_is w hv hf -> w_err w = None ->
    elem_depth (vs.*1) i p d -> elem_depth (vs.*1) j q d -> nsource vs xs j q u l w ->
    (forall capo ho, nown d u l capo ho -> fspec d f ho R) ->
    (i = j -> p = q -> fself d f u l R) ->
    runs (on_var lc vs i p f) w (npost vs xs hf (on_nvar i p R)).
  Proof.
    intros Hr Hh He Hi Hj (o & Ho & Hloc & Hget) Hf Hself. eapply runs_on_var; [done..|].
    intros v l0 cap h1 hr Hv Hx Hd Hown Hh1 Hs Hoth.
    destruct Hj as (dj & Hj & ->). rewrite list_lookup_fmap, Ho in Hj. injection Hj as Hdo.
    destruct (decide (j = i)) as [->|Hne].
    - rewrite Hv in Ho. injection Ho as <-. rewrite Hx in Hget. simpl in Hget. rewrite Hd in Hloc.
      destruct (decide (q = p)) as [->|Hqp].
      + eapply runs_at_path_self; [done..|]. by apply Hself.
      + eapply (runs_at_path_other d p q); [done..|lia|done|done|done|done].
    - destruct (xs !! j) as [y|] eqn:Hy; [|done]. simpl in Hget.
      destruct (Hoth j o y Hne Ho Hy) as (hj & (_ & lj & capj & -> & Hoj) & Hsj). rewrite Hdo in *.
      destruct (nlocated d o.2 lj capj hj q w u l) as (capo & ho & Hu & Hsu); [done| |done|done|].
      { etrans; [exact Hsj|]. destruct Hh1 as [-> ?]. by apply map_union_subseteq_r. }
      eapply runs_at_path; [by eapply Hf|done|done|done|by etrans].
  Qed.

  Lemma runs_with_vec_at vs xs hv hf d j q k (S : list (deep T) -> option error -> list (deep T) -> Prop) w :
    rown vs xs hv -> heap_is w hv hf -> w_err w = None ->
    elem_depth (vs.*1) j q d ->
    (xs !! j ≫= dget q = None -> S xs None xs) ->
    (forall u l cap hu, xs !! j ≫= dget q = Some (DList l) -> nown d u l cap hu -> hu ⊆ w_heap w ->
       nsource vs xs j q u l w -> runs (k u) w (npost vs xs hf S)) ->
    runs (with_vec_at lc vs j q k) w (npost vs xs hf S).
  Proof.
    intros Hr Hh He (dj & Hj & ->) Hno Hyes. rewrite list_lookup_fmap in Hj.
    destruct (vs !! j) as [o|] eqn:Ho; [|done]. injection Hj as Hdo.
    destruct (all_own_focus _ _ _ _ _ _ Hr Ho) as (y & h1 & h2 & Hy & (_ & l & cap & -> & Hown) & _ & Heq & _).
    assert (Hsub : h1 ⊆ w_heap w).
    { destruct Hh as [-> _]. etrans; [|apply map_union_subseteq_l]. rewrite Heq. apply map_union_subseteq_l. }
    unfold with_vec_at, with_var. rewrite Ho. rewrite Hy in Hno, Hyes. simpl in Hno, Hyes. rewrite Hdo in *. rbind.
    destruct (runs_locate (d + length q) q o.2 l cap h1 w (fun r w2 => w2 = w /\ match r with None => dget q (DList l) = None | Some x => exists l2 capo ho, dget q (DList l) = Some (DList l2) /\ nown d x l2 capo ho /\ ho ⊆ h1 end))
      as (r & w2 & Hrun & -> & Hm); [done|done|lia|done| |].
    { intros x l2 capo ho Hg Hx Hsx. split; [done|]. exists l2, capo, ho. split_and!; [done| |done].
      replace (d + length q - length q) with d in Hx by lia. done. }
    eapply runs_eq; [exact Hrun|]. destruct r as [u|].
    - destruct Hm as (l2 & capo & ho & Hg & Hx & Hsx). eapply Hyes; [done|done|by etrans|].
      exists o. rewrite Hdo, Hy. done.
    - apply runs_ret. exists xs, hv. rewrite He. split_and!; try done. by apply Hno.
  Qed.

  Lemma dget_app p q (x : deep T) : dget (p ++ q) x = dget p x ≫= dget q.
  Proof.
    revert x. induction p as [|k p IH]; intros x; [done|]. simpl. destruct x as [|l]; [done|].
    simpl. destruct (l !! k); simpl; [apply IH|done].
  Qed.

  Lemma narg_elem d u l cap hu q y :
    nown d u l cap hu -> l !! q = Some y -> narg (obj_owns lc d) hu (ARef (vec_pos u q)) y.
  Proof.
    intros Hu Hy.
    apply nowns_inv in Hu as [(_ & _ & _ & -> & _)|(b & vs & hvs & Hst & Hfi & Hen & Hle & Hc & Hown & Hb & ->)]; [done|].
    pose proof (all_own_length _ _ _ _ Hown) as Hlen.
    assert (Hq : q < length vs) by (rewrite Hlen; by eapply lookup_lt_Some).
    destruct (lookup_lt_is_Some_2 _ _ Hq) as [x Hx].
    destruct (all_own_focus _ _ _ _ _ _ Hown Hx) as (y' & h1 & h2 & Hy' & Hxy & Hd12 & -> & _). simplify_eq.
    exists x, h1. split; [|split; [done|]].
    - unfold vec_pos. rewrite Hst. simpl. eexists. rewrite lookup_insert. split; [done|]. simpl.
      split; [lia|]. by rewrite lookup_map_seq_0.
    - etrans; [apply map_union_subseteq_l|]. by apply insert_subseteq.
  Qed.

  Lemma runs_with_src vs xs hv hf i p d s f R w :
    rown vs xs hv -> heap_is w hv hf -> w_err w = None ->
    elem_depth (vs.*1) i p d -> src_typed (vs.*1) i p d s ->
    (forall a x hs, narg (obj_owns lc d) hs a x -> fspec d (f a) hs (R x)) ->
    runs (with_src lc vs s (fun a => on_var lc vs i p (f a))) w
      (npost vs xs hf (fun xs e xs' => match src_val s xs with
                                       | Some x => on_nvar i p (R x) xs e xs'
                                       | None => no_call xs e xs'
                                       end)).
  Proof.
    intros Hr Hh He Hi Hs Hf. destruct s as [t|j|j pj q]; simpl in *.
    - subst d. eapply runs_on_alone; [done..|].
      apply Hf. exists (VElem t), ∅. split_and!; [done|by exists t|done].
    - destruct Hs as (Hj & Hd0). destruct d as [|d]; [done|]. simpl in Hj.
      pose proof Hj as (dj & Hj2 & ->). rewrite list_lookup_fmap in Hj2.
      destruct (vs !! j) as [o|] eqn:Ho; [|done]. injection Hj2 as Hdo. simpl in Hdo. rewrite Nat.add_0_r in Hdo.
      destruct (all_own_focus _ _ _ _ _ _ Hr Ho) as (y & _ & _ & Hy & (_ & l & cap & -> & _) & _).
      unfold with_var. rewrite Ho.
      assert (Hij : i <> j).
      { intros <-. destruct Hi as (di & Hi & ->). rewrite list_lookup_fmap, Ho in Hi. injection Hi as Hi. lia. }
      eapply runs_mono; [eapply (runs_on_var vs xs hv hf i p (S d) _ (R (DList l))); [done..|]|].
      + intros v l0 cap0 h1 hr Hv Hx Hd Hown Hh1 Hsr Hoth.
        destruct (Hoth j o (DList l)) as (hj & (_ & lj & capj & Hlj & Hoj) & Hsj); [done..|]. injection Hlj as <-.
        eapply runs_at_path; [|done|done|done|exact Hsj]. apply Hf.
        exists (VVec o.2), hj. split_and!; [done| |done]. rewrite Hdo in Hoj. by exists o.2, l, capj.
      + intros vs' w' (xs' & hv' & ? & ? & ? & ?). exists xs', hv'. rewrite Hy. done.
    - destruct Hs as (Hij & Hj). eapply runs_with_vec_at; [done..| |].
      + intros Hg. destruct (xs !! j); simpl in *; [rewrite dget_app, Hg|]; done.
      + intros u l cap hu Hg Hu Hsub Hset.
        assert (Hsv : xs !! j ≫= dget (pj ++ [q]) = l !! q).
        { destruct (xs !! j) as [y|]; simpl in *; [|done]. rewrite dget_app, Hg. simpl. by destruct (l !! q). }
        rbind. eapply nowns_size; [done|]. case_decide as Hq.
        * destruct (lookup_lt_is_Some_2 _ _ Hq) as [y Hy].
          assert (Hpa : padd (m_start u) q w = Done (vec_pos u q) w).
          { apply nowns_inv in Hu as [(_ & _ & _ & -> & _)|(b & vs0 & hvs & Hst & Hfi & Hen & Hle & Hc & Hown & Hb & ->)]; [simpl in *; lia|].
            unfold vec_pos. rewrite Hst.
            assert (Hwb : w_heap w !! b = Some (Block (m_allocator u) cap cap (map_seq 0 vs0))).
            { eapply lookup_weaken; [|exact Hsub]. apply lookup_insert. }
            destruct (runs_padd w b 0 q _ (fun a w2 => a = Ptr b (0 + q) /\ w2 = w) Hwb) as (a & w2 & Hrd & -> & ->); [|done|done].
            pose proof (all_own_length _ _ _ _ Hown). simpl. lia. }
          rbind. eapply runs_eq; [exact Hpa|].
          eapply runs_mono; [eapply (runs_on_source vs xs hv hf i p d j pj _ (R y)); [done..| |]|].
          { intros capo ho Huo. apply Hf. by eapply narg_elem. }
          { intros -> ->. by destruct Hij. }
          intros vs' w' (xs' & hv' & ? & ? & ? & ?). exists xs', hv'. rewrite Hsv, Hy. done.
        * apply runs_ret. exists xs, hv. rewrite He, Hsv, lookup_ge_None_2 by lia. split_and!; done.
  Qed.

  (** ** The calls *)

  Hypothesis Hgrow : forall d, growth_ok (lc d).

  Lemma heap_is_same w w' h hf : heap_is w h hf -> w_heap w' = w_heap w -> heap_is w' h hf.
  Proof. intros [Hw Hd] Heq. split; [congruence|done]. Qed.

  Lemma narg_mono d hs hf a x : narg (obj_owns lc d) hs a x -> hs ⊆ hf -> narg (obj_owns lc d) hf a x.
  Proof.
    intros (v & hx & Ha & Hv & Hs) Hsub. exists v, hx. split_and!; [|done|by etrans].
    destruct a as [y|[|b o]]; simpl in *; [done|done|]. destruct Ha as (blk & Hb & ?). exists blk. split; [|done].
    by eapply lookup_weaken.
  Qed.

  Lemma fspec_push d a x hs : narg (obj_owns lc d) hs a x ->
    fspec d (fun d v => g_push_back (lc d) (ncons lc ex d) (ndes d) v a) hs (vop_spec (OpPush x)).
  Proof.
    intros Ha u l cap h hf w Hu Hh He Hs.
    eapply (runs_g_push_back (lc d) (obj_owns lc d) _ _ (ncons_ok lc ex Hlc d) (ndes_ok lc d)); [done..|by eapply narg_mono| |].
    - intros v' h' w' Hal Ho Hh' He'. eexists _, _, h'. split_and!; [done|done|by rewrite He'|congruence].
    - intros v' cap' h' w' e Hal Ho Hh' He'. eexists _, _, h'. split_and!; [done|done|by rewrite He'|congruence].
  Qed.

  Lemma fspec_resize d n a x hs : bytes_fit (lc d) n -> narg (obj_owns lc d) hs a x ->
    fspec d (fun d v => g_resize (lc d) (ncons lc ex d) (ndes d) v n a) hs (vop_spec (OpResize n x)).
  Proof.
    intros Hn Ha u l cap h hf w Hu Hh He Hs.
    eapply (runs_g_resize (lc d) (obj_owns lc d) _ _ (ncons_ok lc ex Hlc d) (ndes_ok lc d)); [done..| |by eapply narg_mono| |].
    - right. pose proof (nowns_cap_ok _ _ _ _ _ _ (Hlc d) Hu) as Hc. pose proof (Hgrow d) as Hg.
      pose proof (Hlc d) as Hc0. unfold growth_ok, cap_ok, cfg_ok, fits in *. lia.
    - intros v' h' w' Hle Hal Ho Hh' He'. eexists _, _, h'. split_and!; [done|done| |congruence].
      simpl. by rewrite decide_True, He'.
    - intros v' cap' h' w' k Hle Hal Hk Ho Hh' Hres. eexists _, _, h'. split_and!; [done|done| |congruence].
      simpl. rewrite decide_False by lia. destruct Hres as [[-> ->]|(e & -> & ?)]; [done|]. by exists k.
  Qed.

  Lemma fspec_reserve d n : bytes_fit (lc d) n ->
    fspec d (fun d v => g_reserve (lc d) (ncons lc ex d) (ndes d) v n) ∅ (fun l _ l' => l' = l).
  Proof.
    intros Hn u l cap h hf w Hu Hh He Hs.
    eapply (runs_g_reserve (lc d) (obj_owns lc d) _ _ (ncons_ok lc ex Hlc d) (ndes_ok lc d)); [done..| | |].
    - intros _. by eexists _, _, h.
    - intros v' b h' w' _ _ Hal _ Ho Hh' He'. eexists _, _, h'. split_and!; [done|done|done|congruence].
    - intros w' e _ Hw He'. eexists _, _, h. split_and!; [done|by eapply heap_is_same|done|congruence].
  Qed.

  Lemma fspec_shrink d :
    fspec d (fun d v => g_shrink_to_fit (lc d) (ncons lc ex d) (ndes d) v) ∅ (fun l _ l' => l' = l).
  Proof.
    intros u l cap h hf w Hu Hh He Hs.
    eapply (runs_g_shrink (lc d) (obj_owns lc d) _ _ (ncons_ok lc ex Hlc d) (ndes_ok lc d)); [done..| | |].
    - intros _. by eexists _, _, h.
    - intros v' b h' w' _ _ Hal _ Ho Hh' He'. eexists _, _, h'. split_and!; [done|done|done|congruence].
    - intros w' e _ Hw He'. eexists _, _, h. split_and!; [done|by eapply heap_is_same|done|congruence].
  Qed.

  Lemma fspec_clear d : fspec d (fun d v => g_clear (ndes d) v) ∅ (fun _ e l' => e = None /\ l' = []).
  Proof.
    intros u l cap h hf w Hu Hh He Hs.
    eapply (runs_g_clear (lc d) (obj_owns lc d) _ (ndes_ok lc d)); [done..|].
    intros v' h' w' Ho Hh' He' _ Hal. eexists _, _, h'. split_and!; [done|done|congruence|done|congruence].
  Qed.

  (** copy, assign and the throwing copy may even use the target itself *)
  Definition gspec d (f : nat -> vec_obj -> M (vblock (val T)) vec_obj) hs (R : list (deep T) -> option error -> list (deep T) -> Prop) : Prop :=
    forall u l cap h hf w, nown d u l cap h -> heap_is w h hf -> w_err w = None -> hs ⊆ h ∪ hf ->
      runs (f d u) w (fun u' w' => exists l' cap' h', nown d u' l' cap' h' /\ heap_is w' h' hf /\
        R l (w_err w') l' /\ (m_allocator u = c_dflt (lc d) -> m_allocator u' = c_dflt (lc d))).
  Lemma gspec_fspec d f hs R : gspec d f hs R -> fspec d f hs R.
  Proof. intros Hg u l cap h hf w Hu Hh He Hs. eapply Hg; [done..|]. etrans; [exact Hs|]. apply map_union_subseteq_r, Hh. Qed.
  Lemma gspec_fself d f o lo R : (forall capo ho, nown d o lo capo ho -> gspec d f ho R) -> fself d f o lo R.
  Proof. intros Hg capo ho hf w Hu Hh He. eapply Hg; [done..|]. apply map_union_subseteq_l. Qed.

  Lemma gspec_copy d o lo capo ho : nown d o lo capo ho ->
    gspec d (fun d v => g_copy (lc d) (ncons lc ex d) (ndes d) v o) ho (nbecomes lo).
  Proof.
    intros Hown u l cap h hf w Hu Hh He Hs.
    eapply (runs_g_copy (lc d) (obj_owns lc d) _ _ (ncons_ok lc ex Hlc d) (ndes_ok lc d)); [done..| |].
    - done.
    - intros v' cap' h' w' k Hal Hk Ho Hh' Hres. eexists _, _, h'. split_and!; [done|done| |done].
      unfold nbecomes. destruct Hres as [[-> ->]|(e & -> & ?)]; [by rewrite take_ge|by exists k].
  Qed.

  Lemma gspec_assign d o lo capo ho i j : nown d o lo capo ho -> i <= j -> j <= length lo ->
    gspec d (fun d v => g_assign_ptrs (lc d) (ncons lc ex d) (ndes d) v (vec_pos o i) (vec_pos o j)) ho
      (nbecomes (take (j - i) (drop i lo))).
  Proof.
    intros Hown Hij Hj u l cap h hf w Hu Hh He Hs.
    eapply (runs_g_assign_ptrs (lc d) (obj_owns lc d) _ _ (ncons_ok lc ex Hlc d) (ndes_ok lc d)); [done..| |done|done|].
    - done.
    - intros v' cap' h' w' k Hal Hk Ho Hh' Hres. eexists _, _, h'. split_and!; [done|done| |done].
      unfold nbecomes. destruct Hres as [[-> ->]|(e & -> & ?)]; [done|exists k].
      rewrite take_length, drop_length, take_take. split; [lia|]. f_equal. lia.
  Qed.

  Lemma gspec_throwing d o lo capo ho : nown d o lo capo ho ->
    gspec d (fun d v => let! r := g_copy_assign (lc d) (ncons lc ex d) (ndes d) v o in
                        do! put_err r.2 in ret r.1) ho
      (fun l e l' => l' = match e with None => lo | Some _ => l end).
  Proof.
    intros Hown u l cap h hf w Hu Hh He Hs. rbind.
    eapply (runs_g_copy_assign (lc d) (obj_owns lc d) _ _ (ncons_ok lc ex Hlc d) (ndes_ok lc d)); [done..| | |].
    - done.
    - intros v' cap' h' w' Ho Hh' He' Hal. rbind. eexists _, _. split; [done|]. apply runs_ret.
      eexists _, _, h'. split_and!; [done| |done|done]. by eapply heap_is_same.
    - intros e w' Hw' He'. rbind. eexists _, _. split; [done|]. apply runs_ret.
      eexists _, _, h. split_and!; [done| |done|done]. by eapply heap_is_same.
  Qed.

  Lemma runs_npos_at d o lo capo ho i w (Q : _ -> W -> Prop) :
    nown d o lo capo ho -> ho ⊆ w_heap w -> Q (vec_pos o (i `min` length lo)) w -> runs (pos_at o i) w Q.
  Proof.
    intros Hu Hsub HQ. unfold pos_at. rbind. eapply nowns_size; [done|].
    apply nowns_inv in Hu as [(Hst & _ & _ & -> & _)|(b & vs0 & hvs & Hst & Hfi & Hen & Hle & Hc & Hown & Hb & ->)].
    - unfold vec_begin, vec_pos in *. rewrite Hst in *. simpl in *. rewrite Nat.min_0_r in *.
      eexists _, _. split; [|exact HQ]. done.
    - unfold vec_begin, vec_pos in *. rewrite Hst in *.
      assert (Hwb : w_heap w !! b = Some (Block (m_allocator o) capo capo (map_seq 0 vs0))).
      { eapply lookup_weaken; [|exact Hsub]. apply lookup_insert. }
      eapply runs_padd; [exact Hwb| |done].
      pose proof (all_own_length _ _ _ _ Hown). simpl. lia.
  Qed.

  Lemma range_min a b (lo : list (deep T)) :
    take (b `min` length lo - a `min` length lo) (drop (a `min` length lo) lo) = take (b - a) (drop a lo).
  Proof.
    destruct (decide (length lo <= a)) as [Ha|Ha].
    - rewrite !drop_ge by lia. by rewrite !take_nil.
    - rewrite (Nat.min_l a) by lia. destruct (decide (length lo <= b)).
      + rewrite Nat.min_r by lia. rewrite !take_ge; [done|rewrite drop_length; lia..].
      + by rewrite Nat.min_l by lia.
  Qed.

  Lemma runs_exec_nop op vs xs hv hf w :
    rown vs xs hv -> heap_is w hv hf -> w_err w = None -> nop_legal lc (vs.*1) op ->
    runs (exec_nop lc ex op vs) w (npost vs xs hf (nop_spec op)).
  Proof.
    intros Hr Hh He Hl. destruct op as [i p s|i p n s|i p n|i p|i p|i p j q|i p j q a b|i p j q|i j|i j]; simpl in *.
    - destruct Hl as (d & Hd & Hs).
      eapply (runs_with_src vs xs hv hf i p d s _ (fun x => vop_spec (OpPush x))); [done..|].
      intros a x hs. apply fspec_push.
    - destruct Hl as (d & Hd & Hs & Hn).
      eapply (runs_with_src vs xs hv hf i p d s (fun a d v => g_resize _ _ _ v n a) (fun x => vop_spec (OpResize n x))); [done..|].
      intros a x hs. by apply fspec_resize.
    - destruct Hl as (d & Hd & Hn). eapply runs_on_alone; [done..|by apply fspec_reserve].
    - destruct Hl as (d & Hd). eapply runs_on_alone; [done..|by apply fspec_shrink].
    - destruct Hl as (d & Hd). eapply runs_on_alone; [done..|by apply (fspec_clear d)].
    - destruct Hl as (d & Hd & Hdj). eapply runs_with_vec_at; [done..| |].
      + intros Hg. simpl. by rewrite Hg.
      + intros u l cap hu Hg Hu Hsub Hset.
        eapply runs_mono; [eapply (runs_on_source vs xs hv hf i p d j q _ (nbecomes l)); [done..| |]|].
        * intros. apply gspec_fspec. by eapply gspec_copy.
        * intros _ _. apply gspec_fself. intros. by eapply gspec_copy.
        * intros vs' w' (xs' & hv' & ? & ? & ? & ?). exists xs', hv'. simpl. by rewrite Hg.
    - destruct Hl as (Hab & d & Hd & Hdj). eapply runs_with_vec_at; [done..| |].
      + intros Hg. simpl. by rewrite Hg.
      + intros u l cap hu Hg Hu Hsub Hset.
        rbind. eapply runs_npos_at; [done..|]. rbind. eapply runs_npos_at; [done..|].
        eapply runs_mono; [eapply (runs_on_source vs xs hv hf i p d j q _ (nbecomes (take (b `min` length l - a `min` length l) (drop (a `min` length l) l)))); [done..| |]|].
        * intros. apply gspec_fspec. eapply gspec_assign; [done|lia|lia].
        * intros _ _. apply gspec_fself. intros. eapply gspec_assign; [done|lia|lia].
        * intros vs' w' (xs' & hv' & ? & ? & Hn & ?). exists xs', hv'. simpl. rewrite Hg.
          rewrite range_min in Hn. done.
    - destruct Hl as (d & Hd & Hdj). eapply runs_with_vec_at; [done..| |].
      + intros Hg. simpl. by rewrite Hg.
      + intros u l cap hu Hg Hu Hsub Hset.
        eapply runs_mono; [eapply (runs_on_source vs xs hv hf i p d j q _ (fun l0 e l' => l' = match e with None => l | Some _ => l0 end)); [done..| |]|].
        * intros. apply gspec_fspec. by eapply gspec_throwing.
        * intros _ _. apply gspec_fself. intros. by eapply gspec_throwing.
        * intros vs' w' (xs' & hv' & ? & ? & ? & ?). exists xs', hv'. simpl. by rewrite Hg.
    - destruct Hl as (Hij & d & (di & Hi & ->) & (dj & Hj & ->)). rewrite list_lookup_fmap in Hi, Hj.
      destruct (vs !! i) as [v|] eqn:Hv; [|done]. destruct (vs !! j) as [o|] eqn:Ho; [|done]. simplify_eq/=.
      unfold with_var. rewrite Hv, Ho.
      destruct (all_own_hole2 _ _ _ _ _ _ _ _ Hr Hij Hv Ho) as
        (x & y & h1 & h2 & h3 & Hx & Hy & (Hal1 & l1 & cap1 & -> & Hox) & (Hal2 & l2 & cap2 & -> & Hoy) & Hd1 & Hd23 & -> & Hupd).
      destruct Hh as [Hw Hd]. apply map_disjoint_union_l in Hd as [Hd1f Hd23f].
      pose proof Hd23f as [Hd2f Hd3f]%map_disjoint_union_l.
      rewrite Hi, Hj in *. rbind.
      eapply (runs_g_move_assign (lc (d + 0)) (obj_owns lc (d + 0)) _ (ndes_ok lc (d + 0)) v.2 l1 cap1 h1 o.2 l2 cap2 h2 (h3 ∪ hf));
        [done|done|congruence| |by apply map_disjoint_union_r|].
      { split; [by rewrite Hw, !(assoc_L (∪))|]. apply map_disjoint_union_r in Hd1 as [??].
        repeat (apply map_disjoint_union_r; split); done. }
      intros v' o' w' Hv' Ho' Hav Hao Hw' He'. apply runs_ret. simpl.
      exists (<[i:=DList l2]> (<[j:=DList []]> xs)), (h2 ∪ (∅ ∪ h3)). split_and!.
      + apply Hupd; [split; [simpl; congruence|by exists l2, cap2]|split; [simpl; congruence|by exists [], 0]|by rewrite (left_id_L ∅ (∪))|apply map_disjoint_empty_l].
      + rewrite (left_id_L ∅ (∪)). split; [by rewrite Hw', (assoc_L (∪))|]. done.
      + simpl. rewrite Hx, Hy. split; [congruence|done].
      + rewrite !list_fmap_insert. simpl. rewrite (list_insert_id _ j), (list_insert_id _ i); rewrite ?list_lookup_fmap, ?Hv, ?Ho; simpl; congruence.
    - destruct Hl as (Hij & d & (di & Hi & ->) & (dj & Hj & ->)). rewrite list_lookup_fmap in Hi, Hj.
      destruct (vs !! i) as [v|] eqn:Hv; [|done]. destruct (vs !! j) as [o|] eqn:Ho; [|done]. simplify_eq/=.
      unfold with_var. rewrite Hv, Ho.
      destruct (all_own_hole2 _ _ _ _ _ _ _ _ Hr Hij Hv Ho) as
        (x & y & h1 & h2 & h3 & Hx & Hy & (Hal1 & l1 & cap1 & -> & Hox) & (Hal2 & l2 & cap2 & -> & Hoy) & Hd1 & Hd23 & -> & Hupd).
      destruct Hh as [Hw Hd]. apply map_disjoint_union_l in Hd as [Hd1f Hd23f].
      pose proof Hd1 as [Hd12 Hd13]%map_disjoint_union_r.
      rewrite Hi, Hj in *. apply runs_ret. simpl.
      exists (<[i:=DList l2]> (<[j:=DList l1]> xs)), (h2 ∪ (h1 ∪ h3)). split_and!.
      + apply Hupd.
        * split; [simpl; congruence|]. exists l2, cap2. split; [done|]. simpl. eapply nowns_move; [exact Hoy|congruence].
        * split; [simpl; congruence|]. exists l1, cap1. split; [done|]. simpl. eapply nowns_move; [exact Hox|congruence].
        * apply map_disjoint_union_r. by split.
        * done.
      + assert (Heq : h2 ∪ (h1 ∪ h3) = h1 ∪ (h2 ∪ h3)).
        { rewrite !(assoc_L (∪)). f_equal. by apply map_union_comm. }
        rewrite Heq. split; [by rewrite Hw|]. by apply map_disjoint_union_l.
      + simpl. rewrite Hx, Hy. done.
      + rewrite !list_fmap_insert. simpl. rewrite (list_insert_id _ j), (list_insert_id _ i); rewrite ?list_lookup_fmap, ?Hv, ?Ho; simpl; congruence.
  Qed.

  Lemma runs_exec_nops ops vs xs hv hf w :
    rown vs xs hv -> heap_is w hv hf -> Forall (nop_legal lc (vs.*1)) ops ->
    runs (exec_nops lc ex ops vs) w (fun r w' => exists xs' hv',
      rown r.1 xs' hv' /\ heap_is w' hv' hf /\ nops_spec ops xs r.2 xs' /\ r.1.*1 = vs.*1).
  Proof.
    revert vs xs hv w. induction ops as [|op ops IH]; intros vs xs hv w Hr Hh Hl; simpl.
    - apply runs_ret. by exists xs, hv.
    - apply Forall_cons in Hl as [Hl1 Hl2]. rbind. eexists _, _. split; [done|]. rbind.
      eapply runs_mono; [eapply (runs_exec_nop op vs xs hv hf); [done|by eapply heap_is_same|done|done]|].
      intros vs1 w1 (xs1 & hv1 & Hr1 & Hh1 & Hs1 & Hds). rbind. eexists _, _. split; [done|]. rbind.
      eapply runs_mono; [eapply (IH vs1 xs1 hv1); [done|done|by rewrite Hds]|].
      intros r w2 (xs2 & hv2 & Hr2 & Hh2 & Hs2 & Hds2). apply runs_ret. simpl. exists xs2, hv2.
      split; [done|]. split; [done|]. split; [by exists xs1|congruence].
  Qed.

  Lemma runs_destroy_nrow vs xs hv hf w (Q : _ -> W -> Prop) :
    rown vs xs hv -> heap_is w hv hf -> (forall w', w_heap w' = hf -> Q tt w') -> runs (destroy_nrow vs) w Q.
  Proof.
    revert xs hv w. induction vs as [|v vs IH]; intros xs hv w Hr [Hw Hd] HQ; simpl.
    - apply all_own_nil_inv in Hr as [-> ->]. apply runs_ret, HQ. rewrite Hw. by rewrite (left_id_L ∅ (∪)).
    - apply all_own_cons_inv in Hr as (x & xs2 & h1 & h2 & -> & (Hal & l & cap & -> & Ho) & Hr & Hd12 & ->).
      apply map_disjoint_union_l in Hd as [Hd1 Hd2]. rbind.
      eapply (runs_g_vec_destroy (lc v.1) (obj_owns lc v.1) _ (ndes_ok lc v.1) _ _ _ _ (h2 ∪ hf)); [done| |].
      { split; [by rewrite Hw, (assoc_L (∪))|]. by apply map_disjoint_union_r. }
      intros w' Hw' _. eapply IH; [done|by split|done].
  Qed.
End hist.
