(** * Rebalancing after insertion and after removal *)
From Verif Require Export RbProofs.

Section fix_.
  Context {V : Type} (al : alloc_id) (hdr : addr).
  Notation H := (gmap addr (tcell V)).
  Notation W := (world (tcell V)).
  Implicit Types h hf : H.
  Implicit Types w : W.
  Implicit Types t s : tree V.
  Implicit Types lm rm : addr.
  Implicit Types cnt n : nat.
  Implicit Types k : @ctx V.
  Notation tin := (tin al hdr).

  (** ** Elements of a node, by direction *)

  Definition ejoin {A} (d : dir) (X : list A) (p : A) (Y : list A) : list A :=
    match d with DL => X ++ p :: Y | DR => Y ++ p :: X end.
  Lemma elems_nodeD d c a v t s : elems (nodeD d c a v t s) = ejoin d (elems t) (a, v) (elems s).
  Proof. by destruct d. Qed.
  Lemma ejoin_assoc {A} d (X : list A) p Y q Z : ejoin d (ejoin d X p Y) q Z = ejoin d X p (ejoin d Y q Z).
  Proof. destruct d; simpl; by rewrite <-(assoc_L (++)). Qed.
  Lemma ejoin_flip {A} d (X : list A) p Y : ejoin (flip d) X p Y = ejoin d Y p X.
  Proof. by destruct d. Qed.

  (** ** Red-black conditions of contexts *)

  (** the header counts as red: so the root must be black *)
  Definition ccol k : color := match k with Top => Red | Frame _ c _ _ _ _ => c end.
  Fixpoint cbal n k : Prop :=
    match k with
    | Top => True
    | Frame d Red a v s k => bal n s /\ cbal n k
    | Frame d Black a v s k => bal n s /\ cbal (S n) k
    end.
  Fixpoint cnored k : Prop :=
    match k with
    | Top => True
    | Frame d c a v s k => (c = Red -> tcol s = Black /\ ccol k = Black) /\ nored s /\ cnored k
    end.

  Lemma plug_nored k t :
    nored t -> cnored k -> (tcol t = Red -> k = Top \/ ccol k = Black) -> nored (plug k t).
  Proof.
    revert t. induction k as [|d c a v s k IH]; intros t Ht Hk Hc; simpl; [done|].
    simpl in Hk. destruct Hk as (H1 & H2 & H3). apply IH; [|done|].
    - apply nored_nodeD. simpl. split_and!; [|done|done]. intros ->. split; [|by apply H1].
      destruct (tcol t); [|done]. by destruct Hc.
    - rewrite tcol_nodeD. intros ->. right. by apply H1.
  Qed.
  Lemma plug_bal n k t : bal n t -> cbal n k -> exists m, bal m (plug k t).
  Proof.
    revert n t. induction k as [|d c a v s k IH]; intros n t Ht Hk; simpl; [eauto|].
    destruct c; simpl in Hk; destruct Hk as [Hs Hk].
    - eapply IH; [|exact Hk]. by apply bal_nodeD.
    - eapply IH; [|exact Hk]. apply bal_nodeD. simpl. eauto.
  Qed.
  Lemma plug_col k t : cnored k -> k <> Top -> tcol (plug k t) = Black.
  Proof.
    revert t. induction k as [|d c a v s k IH]; intros t Hk Hn; [done|]. simpl.
    destruct Hk as (H1 & _ & H3). destruct k as [|d' c' a' v' s' k].
    - simpl. rewrite tcol_nodeD. destruct c; [|done]. by destruct H1.
    - by apply IH.
  Qed.
  Lemma rb_plug n k t :
    nored t -> cnored k -> (tcol t = Red -> ccol k = Black) -> bal n t -> cbal n k -> rb (plug k t).
  Proof.
    intros Hnt Hnk Hc Hb Hcb. split_and!.
    - destruct k as [|d c a v s k]; [|by apply plug_col]. simpl. destruct (tcol t); [|done]. by specialize (Hc eq_refl).
    - apply plug_nored; [done..|]. auto.
    - by eapply plug_bal.
  Qed.

  (** from the whole tree to a place in it *)
  Lemma plug_inv n k t :
    bal n (plug k t) -> exists m, bal m t /\ cbal m k.
  Proof.
    revert t. induction k as [|d c a v s k IH]; intros t; simpl; [eauto|].
    intros (m & Hb & Hc)%IH. apply bal_nodeD in Hb. destruct c; simpl in Hb.
    - destruct Hb. eauto.
    - destruct Hb as (m' & -> & ? & ?). eauto.
  Qed.
  Lemma plug_nored_inv k t :
    nored (plug k t) -> tcol (plug k t) = Black -> nored t /\ cnored k /\ (tcol t = Red -> ccol k = Black).
  Proof.
    revert t. induction k as [|d c a v s k IH]; intros t; simpl; [intros ? ->; done|].
    intros Hn Hb. destruct (IH _ Hn Hb) as (H1 & H2 & H3). apply nored_nodeD in H1. rewrite tcol_nodeD in H3.
    destruct H1 as (H1 & Ht & Hs). split_and!; [done| |done|done|].
    - intros ->. split; [by apply H1|by apply H3].
    - intros Ht'. destruct c; [|done]. destruct H1 as [H1 _]; [done|]. congruence.
  Qed.

  (** ** Insertion *)

  Definition ins_case (d : dir) (fuel : nat) (x xp xpp : addr) : M (tcell V) unit :=
    let! y := get_child (flip d) xpp in
    let! yr := is_red y in
    if (yr : bool) then
      do! set_color xp Black in
      let! y := deref y in
      do! set_color y Black in
      do! set_color xpp Red in
      ins_loop fuel hdr xpp
    else
      let! r := get_child (flip d) xp in
      let! x := (if decide (r = Some x) then
                   do! rotate hdr d xp in ret xp
                 else ret x) in
      let! xp := parent_of x in
      do! set_color xp Black in
      do! set_color xpp Red in
      do! rotate hdr (flip d) xpp in
      ins_loop fuel hdr x.
  Lemma ins_loop_S fuel x :
    ins_loop (V:=V) (S fuel) hdr x =
    (let! root := get_parent hdr in
     if decide (root = Some x) then ret tt else
     let! xp := parent_of x in
     let! c := get_color xp in
     if decide (c <> Red) then ret tt else
     let! xpp := parent_of xp in
     let! l := get_left xpp in
     if decide (l = Some xp) then ins_case DL fuel x xp xpp else ins_case DR fuel x xp xpp).
  Proof. reflexivity. Qed.

  Lemma runs_is_red lm rm cnt h hf k t w (Q : bool -> W -> Prop) :
    w_heap w = h -> tin lm rm cnt h hf (plug k t) ->
    Q (bool_decide (tcol t = Red)) w -> runs (is_red (root t)) w Q.
  Proof.
    intros Hw Ht HQ. destruct t as [|c a v l r]; simpl in *; [by apply runs_ret|].
    rbind. eapply (runs_get_color al DL); [rewrite Hw; by eapply (tin_node al hdr _ _ _ _ _ k)|]. by apply runs_ret.
  Qed.
  Lemma runs_is_black lm rm cnt h hf k t w (Q : bool -> W -> Prop) :
    w_heap w = h -> tin lm rm cnt h hf (plug k t) ->
    Q (bool_decide (tcol t = Black)) w -> runs (is_black (root t)) w Q.
  Proof.
    intros Hw Ht HQ. destruct t as [|c a v l r]; simpl in *; [by apply runs_ret|].
    rbind. eapply (runs_get_color al DL); [rewrite Hw; by eapply (tin_node al hdr _ _ _ _ _ k)|]. by apply runs_ret.
  Qed.

  (** the root of a nonempty context is not the node in its hole *)
  Lemma root_ne lm rm cnt h hf k t x :
    tin lm rm cnt h hf (plug k t) -> k <> Top -> root t = Some x -> root (plug k t) <> Some x.
  Proof.
    intros Ht Hk Hx. rewrite root_plug, Hx. destruct k as [|d c a v s k]; [done|].
    destruct (croot_in d c a v s k (Some x)) as (b & -> & Hin). intros [= ->].
    destruct (tin_tags al hdr _ _ _ _ _ _ _ Ht) as (f & _ & F1 & F2).
    assert (f x = 1) by (by apply F1). assert (f x = 2); [|congruence].
    apply F2. destruct t; [done|]. simpl in Hx |- *. simplify_eq. rewrite fmap_app. set_solver.
  Qed.

  (** the two children of a node differ *)
  Lemma sib_ne lm rm cnt h hf k d c a v t s x :
    tin lm rm cnt h hf (plug k (nodeD d c a v t s)) -> root t = Some x -> root s <> Some x.
  Proof.
    intros Ht Hx Hs. pose proof (tin_nodup al hdr _ _ _ _ _ _ Ht) as Hn.
    rewrite elems_plug, !fmap_app in Hn. apply NoDup_cons in Hn as [_ Hn].
    apply NoDup_app in Hn as (_ & _ & Hn). apply NoDup_app in Hn as (Hn & _).
    destruct t; [done|]. destruct s; [done|]. simpl in Hx, Hs. simplify_eq.
    destruct d; simpl in Hn; repeat (rewrite fmap_app in Hn; csimpl in Hn);
      apply NoDup_app in Hn as (_ & Hn & _); apply (Hn x); set_solver.
  Qed.

  Definition ins_post lm rm cnt hf t (Q : unit -> W -> Prop) w : Prop :=
    forall h' t', tin lm rm cnt h' hf t' -> elems t' = elems t -> nored t' -> (exists n, bal n t') ->
      Q tt (set_heap h' w).

  Lemma ins_loop_spec lm rm cnt hf fuel k x v l r n w (Q : unit -> W -> Prop) :
    depth k < fuel ->
    tin lm rm cnt (w_heap w) hf (plug k (Node Red x v l r)) ->
    nored (Node Red x v l r) -> cnored k -> bal n (Node Red x v l r) -> cbal n k ->
    ins_post lm rm cnt hf (plug k (Node Red x v l r)) Q w ->
    runs (ins_loop fuel hdr x) w Q.
  Proof.
    revert k x v l r n w. induction fuel as [fuel IH] using lt_wf_ind. intros k x v l r n w Hf Ht Hnr Hcn Hb Hcb HQ.
    destruct fuel as [|fuel]; [lia|].
    rewrite ins_loop_S.
    rbind. eapply runs_root; [apply (tin_hdr al hdr _ _ _ _ _ _ Ht)|].
    destruct k as [|d c xp vp s k].
    { simpl. rewrite decide_True by done. apply runs_ret.
      replace w with (set_heap (w_heap w) w) by (by destruct w).
      eapply HQ; [done|done|done|]. eauto. }
    rewrite decide_False by (by eapply root_ne).
    rbind. eapply (runs_parent_of al DL); [by eapply (tin_node al hdr _ _ _ _ _ (Frame d c xp vp s k))|].
    simpl cpar. rbind. eapply (runs_get_color al d).
    { eapply (tin_nodeD al hdr _ _ _ _ _ k). exact Ht. }
    destruct c; cycle 1.
    { rewrite decide_True by done. apply runs_ret.
      replace w with (set_heap (w_heap w) w) by (by destruct w).
      eapply HQ; [done|done| |].
      - apply plug_nored; auto.
      - by eapply plug_bal. }
    rewrite decide_False by naive_solver.
    rbind. eapply (runs_parent_of al d).
    { eapply (tin_nodeD al hdr _ _ _ _ _ k). exact Ht. }
    destruct Hcn as (Hcs & Hns & Hcn). destruct (Hcs eq_refl) as [Hts Hck].
    destruct k as [|d1 c1 xpp vpp u k]; [done|]. simpl in Hck. subst c1.
    simpl in Hcb, Hcn. destruct Hcb as (Hbs & Hbu & Hcb). destruct Hcn as (_ & Hnu & Hcn).
    simpl cpar.
    assert (get_left xpp = get_child (V:=V) DL xpp) as -> by done.
    (* both mirror images *)
    assert (runs (ins_case d1 fuel x xp xpp) w Q) as Hcase; cycle 1.
    { rbind. destruct d1.
      - eapply (runs_get_child al DL). { eapply (tin_nodeD al hdr _ _ _ _ _ k DL). exact Ht. }
        rewrite root_nodeD, decide_True by done. done.
      - eapply (runs_get_child_flip al DR). { eapply (tin_nodeD al hdr _ _ _ _ _ k DR). exact Ht. }
        rewrite decide_False; [done|]. eapply (sib_ne _ _ _ _ _ k DR); [exact Ht|]. by rewrite root_nodeD. }
    unfold ins_case.
    rbind. eapply (runs_get_child_flip al d1). { eapply (tin_nodeD al hdr _ _ _ _ _ k d1). exact Ht. }
    rbind. eapply (runs_is_red _ _ _ _ _ (Frame (flip d1) Black xpp vpp (nodeD d Red xp vp (Node Red x v l r) s) k)); [done| |].
    { simpl. rewrite nodeD_flip. exact Ht. }
    destruct (tcol u) eqn:Hu.
    - (* red uncle: recolor and climb *)
      rewrite bool_decide_true by done.
      destruct u as [|cu au vu ul ur]; [done|]. simpl in Hu. subst cu.
      rbind. eapply (recolorD_spec al hdr _ _ _ (Frame d1 Black xpp vpp (Node Red au vu ul ur) k) d); [exact Ht|].
      intros h1 Ht1. simpl root. rbind. apply runs_deref.
      rbind. eapply (recolor_spec al hdr _ _ _ (Frame (flip d1) Black xpp vpp (nodeD d Black xp vp (Node Red x v l r) s) k)).
      { simpl. rewrite nodeD_flip. exact Ht1. }
      intros h2 Ht2. simpl in Ht2. rewrite nodeD_flip in Ht2.
      rbind. eapply (recolorD_spec al hdr _ _ _ k d1); [exact Ht2|]. intros h3 Ht3.
      assert (exists l' r', nodeD d1 Red xpp vpp (nodeD d Black xp vp (Node Red x v l r) s) (Node Black au vu ul ur) = Node Red xpp vpp l' r') as (l' & r' & Heq).
      { destruct d1; simpl; eauto. }
      rewrite Heq in Ht3.
      eapply (IH fuel ltac:(lia) k xpp vpp l' r' (S n)); [simpl in Hf; lia|exact Ht3| |done| |exact Hcb|].
      + rewrite <-Heq. apply nored_nodeD. simpl in Hnu. simpl. rewrite tcol_nodeD. rewrite nored_nodeD. simpl. simpl in Hnr.
        naive_solver.
      + rewrite <-Heq. apply bal_nodeD. simpl. rewrite bal_nodeD. simpl in Hb, Hbs, Hbu |- *.
        destruct Hb, Hbu. split; eauto 10.
      + intros h' t' Hh' He. unfold set_heap; simpl. apply HQ; [done|].
        rewrite He, <-Heq. simpl. rewrite !elems_plug. do 2 f_equal. by destruct d, d1.
    - (* black uncle: rotate *)
      rewrite bool_decide_false by done.
      (* the rest, for the outer position *)
      assert (forall x' vx' xp' vp' A B E w',
        tin lm rm cnt (w_heap w') hf (plug k (nodeD d1 Black xpp vpp (nodeD d1 Red xp' vp' (nodeD d1 Red x' vx' A B) E) u)) ->
        elems (nodeD d1 Red xp' vp' (nodeD d1 Red x' vx' A B) E) = elems (nodeD d Red xp vp (Node Red x v l r) s) ->
        (forall h, set_heap h w' = set_heap h w) ->
        nored A -> nored B -> nored E -> tcol A = Black -> tcol B = Black -> tcol E = Black ->
        bal n A -> bal n B -> bal n E ->
        runs (let! xp := parent_of x' in
              do! set_color xp Black in
              do! set_color xpp Red in
              do! rotate hdr (flip d1) xpp in
              ins_loop fuel hdr x') w' Q) as Hrest.
      { intros x' vx' xp' vp' A B E w' Ht' He Hw' HnA HnB HnE HcA HcB HcE HbA HbB HbE.
        rbind. eapply (runs_parent_of al d1). { eapply (tin_nodeD al hdr _ _ _ _ _ (Frame d1 Red xp' vp' E (Frame d1 Black xpp vpp u k))). exact Ht'. }
        simpl cpar.
        rbind. eapply (recolorD_spec al hdr _ _ _ (Frame d1 Black xpp vpp u k) d1); [exact Ht'|].
        intros h1 Ht1. simpl in Ht1.
        rbind. eapply (recolorD_spec al hdr _ _ _ k d1); [exact Ht1|]. intros h2 Ht2.
        rbind. eapply (rotate_spec al hdr _ _ _ (flip d1) k).
        { rewrite !nodeD_flip. exact Ht2. }
        intros h3 Ht3. rewrite !nodeD_flip in Ht3.
        destruct fuel as [|fuel]; [simpl in Hf; lia|].
        rewrite ins_loop_S. rbind. eapply runs_root; [apply (tin_hdr al hdr _ _ _ _ _ _ Ht3)|].
        rewrite decide_False; cycle 1.
        { eapply (root_ne _ _ _ _ _ (Frame d1 Black xp' vp' (nodeD d1 Red xpp vpp E u) k)); [exact Ht3|done|by rewrite root_nodeD]. }
        rbind. eapply (runs_parent_of al d1).
        { eapply (tin_nodeD al hdr _ _ _ _ _ (Frame d1 Black xp' vp' (nodeD d1 Red xpp vpp E u) k)). exact Ht3. }
        simpl cpar. rbind. eapply (runs_get_color al d1). { eapply (tin_nodeD al hdr _ _ _ _ _ k). exact Ht3. }
        rewrite decide_True by done. apply runs_ret. unfold set_heap; simpl.
        specialize (Hw' h3). unfold set_heap in Hw'. rewrite Hw'.
        eapply HQ; [exact Ht3| | |].
        - simpl. rewrite !elems_plug. do 2 f_equal.
          rewrite (elems_nodeD d1 Black xpp), <-He. rewrite !elems_nodeD. symmetry. apply ejoin_assoc.
        - apply plug_nored; [|done|by rewrite tcol_nodeD].
          rewrite nored_nodeD. simpl. rewrite !nored_nodeD. simpl. naive_solver.
        - eapply (plug_bal (S n)); [|done]. rewrite bal_nodeD. exists n. rewrite !bal_nodeD. simpl. tauto. }
      simpl in Hnr, Hb. destruct Hnr as (Hcl & Hnl & Hnr). destruct (Hcl eq_refl) as [Hll Hlr]. destruct Hb as [Hbl Hbr].
      assert (d = d1 \/ d = flip d1) as [->| ->] by (destruct d, d1; auto).
      + rbind. eapply (runs_get_child_flip al d1). { eapply (tin_nodeD al hdr _ _ _ _ _ (Frame d1 Black xpp vpp u k)). exact Ht. }
        rewrite decide_False; cycle 1.
        { eapply (sib_ne _ _ _ _ _ (Frame d1 Black xpp vpp u k)); [exact Ht|done]. }
        rbind. apply runs_ret.
        destruct d1.
        * eapply (Hrest x v xp vp l r s); try done.
        * eapply (Hrest x v xp vp r l s); try done.
      + rbind. eapply (runs_get_child al (flip d1)). { eapply (tin_nodeD al hdr _ _ _ _ _ (Frame d1 Black xpp vpp u k)). exact Ht. }
        simpl root. rewrite decide_True by done.
        rbind. rbind.
        assert (exists A B, Node Red x v l r = nodeD d1 Red x v A B /\ nored A /\ nored B /\ tcol A = Black /\ tcol B = Black /\ bal n A /\ bal n B)
          as (A & B & Heq & HnA & HnB & HcA & HcB & HbA & HbB).
        { destruct d1; [exists l, r|exists r, l]; done. }
        rewrite Heq in *. simpl in Ht. rewrite nodeD_flip in Ht.
        eapply (rotate_spec al hdr _ _ _ d1 (Frame d1 Black xpp vpp u k)); [exact Ht|].
        intros h1 Ht1. simpl in Ht1. apply runs_ret.
        eapply (Hrest xp vp x v s A B); try done.
        rewrite nodeD_flip. rewrite !elems_nodeD. apply ejoin_assoc.
  Qed.
  (** ** Removal *)

  Definition blacken t : tree V :=
    match t with Leaf => Leaf | Node _ a v l r => Node Black a v l r end.
  Lemma blacken_black t : tcol t = Black -> blacken t = t.
  Proof. destruct t; simpl; [done|]. by intros ->. Qed.
  Lemma blacken_col t : tcol (blacken t) = Black.
  Proof. by destruct t. Qed.
  Lemma blacken_red n t : tcol t = Red -> bal n t -> bal (S n) (blacken t).
  Proof. destruct t; simpl; [done|]. intros ->. eauto. Qed.
  Lemma blacken_elems t : elems (blacken t) = elems t.
  Proof. by destruct t. Qed.
  Lemma blacken_nored t : nored t -> nored (blacken t).
  Proof. destruct t; simpl; [done|]. intros (_ & ? & ?). done. Qed.

  Definition up (c : color) (n : nat) : nat := match c with Red => n | Black => S n end.
  Lemma cbal_frame n d c a v s k : cbal n (Frame d c a v s k) <-> bal n s /\ cbal (up c n) k.
  Proof. by destruct c. Qed.
  Lemma bal_up n d c a v t s : bal n t -> bal n s -> bal (up c n) (nodeD d c a v t s).
  Proof. intros. rewrite bal_nodeD. destruct c; simpl; eauto. Qed.
  Lemma bal_cases n d t : bal (S n) t -> exists c a v A B, t = nodeD d c a v A B.
  Proof. destruct t as [|c a v l r]; [done|]. intros _. destruct d; [exists c, a, v, l, r|exists c, a, v, r, l]; done. Qed.

  (** rbt.hpp:580-591 and its mirror image *)
  Definition erase_final (d : dir) (x : option addr) (xp sb : addr) : M (tcell V) (option addr) :=
    let! c := get_color xp in
    do! set_color sb c in
    do! set_color xp Black in
    let! wr := get_child (flip d) sb in
    do! (match wr with Some wr => set_color wr Black | None => ret tt end) in
    do! rotate hdr d xp in
    ret x.
  Definition erase_black (d : dir) (fuel : nat) (x : option addr) (xp sb : addr) : M (tcell V) (option addr) :=
    let! wl := get_child d sb in
    let! bl := is_black wl in
    let! wr := get_child (flip d) sb in
    let! br := (if (bl : bool) then is_black wr else ret false) in
    if (bl && br) then
      do! set_color sb Red in
      let! p := parent_of xp in
      erase_loop fuel hdr (Some xp) p
    else
      let! br := is_black wr in
      let! sb := (if (br : bool) then
                   let! wl := deref wl in
                   do! set_color wl Black in
                   do! set_color sb Red in
                   do! rotate hdr (flip d) sb in
                   let! sb := get_child (flip d) xp in deref sb
                 else ret sb) in
      erase_final d x xp sb.
  Definition erase_case (d : dir) (fuel : nat) (x : option addr) (xp : addr) : M (tcell V) (option addr) :=
    let! sb := get_child (flip d) xp in
    let! sb := deref sb in
    let! c := get_color sb in
    let! sb := (if decide (c = Red) then
                 do! set_color sb Black in
                 do! set_color xp Red in
                 do! rotate hdr d xp in
                 let! sb := get_child (flip d) xp in deref sb
               else ret sb) in
    erase_black d fuel x xp sb.
  Lemma erase_loop_S fuel x xp :
    erase_loop (V:=V) (S fuel) hdr x xp =
    (let! root := get_parent hdr in
     if decide (x = root) then ret x else
     let! b := is_black x in
     if negb b then ret x else
     let! l := get_child DL xp in
     if decide (x = l) then erase_case DL fuel x xp else erase_case DR fuel x xp).
  Proof. reflexivity. Qed.

  Lemma set_heap_id w : set_heap (w_heap w) w = w.
  Proof. by destruct w. Qed.

  Definition er_post lm rm cnt hf t (Q : option addr -> W -> Prop) w : Prop :=
    forall h' k' x', tin lm rm cnt h' hf (plug k' x') -> elems (plug k' x') = elems t ->
      rb (plug k' (blacken x')) -> Q (root x') (set_heap h' w).

  Lemma erase_final_spec lm rm cnt hf d k cx xp vp x cw a vw B cc b vb C1 C2 n w (Q : option addr -> W -> Prop) :
    tin lm rm cnt (w_heap w) hf (plug k (nodeD d cx xp vp x (nodeD d cw a vw B (nodeD d cc b vb C1 C2)))) ->
    tcol x = Black -> nored x -> bal n x -> cnored k -> (cx = Red -> ccol k = Black) ->
    nored B -> bal n B ->
    nored C1 -> nored C2 -> bal n C1 -> bal n C2 -> cbal (up cx (S n)) k ->
    er_post lm rm cnt hf (plug k (nodeD d cx xp vp x (nodeD d cw a vw B (nodeD d cc b vb C1 C2)))) Q w ->
    runs (erase_final d (root x) xp a) w Q.
  Proof.
    intros Ht Hcx Hnx Hbx Hnk Hck HnB HbB Hn1 Hn2 Hb1 Hb2 Hbk HQ. unfold erase_final.
    rbind. eapply (runs_get_color al d). { eapply (tin_nodeD al hdr _ _ _ _ _ k). exact Ht. }
    rbind. eapply (recolorD_spec al hdr _ _ _ (Frame (flip d) cx xp vp x k) d).
    { simpl. rewrite nodeD_flip. exact Ht. }
    intros h1 Ht1. simpl in Ht1. rewrite nodeD_flip in Ht1.
    rbind. eapply (recolorD_spec al hdr _ _ _ k d); [exact Ht1|].
    intros h2 Ht2. rbind. eapply (runs_get_child_flip al d).
    { eapply (tin_nodeD al hdr _ _ _ _ _ (Frame (flip d) Black xp vp x k)). simpl. rewrite nodeD_flip. exact Ht2. }
    rewrite root_nodeD.
    rbind. eapply (recolorD_spec al hdr _ _ _ (Frame (flip d) cx a vw B (Frame (flip d) Black xp vp x k)) d).
    { simpl. rewrite !nodeD_flip. exact Ht2. }
    intros h3 Ht3. simpl in Ht3. rewrite !nodeD_flip in Ht3.
    rbind. eapply (rotate_spec al hdr _ _ _ d k); [exact Ht3|]. intros h4 Ht4.
    apply runs_ret. unfold set_heap; simpl.
    eapply (HQ h4 (Frame d Black xp vp B (Frame d cx a vw (nodeD d Black b vb C1 C2) k))); [exact Ht4| |].
    - simpl. rewrite !elems_plug. do 2 f_equal. rewrite !elems_nodeD. apply ejoin_assoc.
    - rewrite blacken_black by done. simpl. eapply (rb_plug (up cx (S n))); [|done| | |done].
      + rewrite nored_nodeD. simpl. rewrite !nored_nodeD, !tcol_nodeD. simpl. naive_solver.
      + by rewrite tcol_nodeD.
      + apply bal_up; rewrite bal_nodeD; simpl; eauto.
  Qed.

  Lemma erase_black_spec lm rm cnt hf fuel d k cx xp vp x a vw B C n w (Q : option addr -> W -> Prop) :
    tin lm rm cnt (w_heap w) hf (plug k (nodeD d cx xp vp x (nodeD d Black a vw B C))) ->
    tcol x = Black -> nored x -> bal n x -> cnored k -> (cx = Red -> ccol k = Black) ->
    nored B -> bal n B -> nored C -> bal n C -> cbal (up cx (S n)) k ->
    er_post lm rm cnt hf (plug k (nodeD d cx xp vp x (nodeD d Black a vw B C))) Q w ->
    (forall w', tcol B = Black -> tcol C = Black ->
       tin lm rm cnt (w_heap w') hf (plug k (nodeD d cx xp vp x (nodeD d Red a vw B C))) ->
       (forall h, set_heap h w' = set_heap h w) ->
       runs (erase_loop fuel hdr (Some xp) (cpar hdr k)) w' Q) ->
    runs (erase_black d fuel (root x) xp a) w Q.
  Proof.
    intros Ht Hcx Hnx Hbx Hnk Hck HnB HbB HnC HbC Hbk HQ Hup. unfold erase_black.
    assert (w_heap w !! a = Some (ncellD al d Black xp (root B) (root C) vw)) as Ha.
    { eapply (tin_nodeD al hdr _ _ _ _ _ (Frame (flip d) cx xp vp x k)). simpl. rewrite nodeD_flip. exact Ht. }
    rbind. eapply (runs_get_child al d); [done|].
    rbind. eapply (runs_is_black _ _ _ _ _ (Frame d Black a vw C (Frame (flip d) cx xp vp x k))); [done| |].
    { simpl. rewrite nodeD_flip. exact Ht. }
    rbind. eapply (runs_get_child_flip al d); [done|].
    assert (tin lm rm cnt (w_heap w) hf (plug (Frame (flip d) Black a vw B (Frame (flip d) cx xp vp x k)) C)) as HtC.
    { simpl. rewrite !nodeD_flip. exact Ht. }
    rbind. destruct (tcol B) eqn:HcB; cycle 1; [destruct (tcol C) eqn:HcC; cycle 1|].
    - (* both black *)
      rewrite bool_decide_true by done. eapply runs_is_black; [done|exact HtC|].
      rewrite bool_decide_true by done. simpl.
      rbind. eapply (recolorD_spec al hdr _ _ _ (Frame (flip d) cx xp vp x k) d).
      { simpl. rewrite nodeD_flip. exact Ht. }
      intros h1 Ht1. simpl in Ht1. rewrite nodeD_flip in Ht1.
      rbind. eapply (runs_parent_of al d). { eapply (tin_nodeD al hdr _ _ _ _ _ k). exact Ht1. }
      apply Hup; done.
    - (* far child red *)
      rewrite bool_decide_true by done. eapply runs_is_black; [done|exact HtC|].
      rewrite bool_decide_false by (by rewrite HcC). simpl.
      rbind. eapply runs_is_black; [done|exact HtC|]. rewrite bool_decide_false by (by rewrite HcC).
      rbind. apply runs_ret.
      destruct C as [|cc b vb C1 C2]; [done|]. simpl in HcC. subst cc.
      assert (exists D1 D2, Node Red b vb C1 C2 = nodeD d Red b vb D1 D2 /\ nored D1 /\ nored D2 /\ bal n D1 /\ bal n D2)
        as (D1 & D2 & HeqD & Hn1 & Hn2 & Hb1 & Hb2).
      { simpl in HnC, HbC. destruct d; [exists C1, C2|exists C2, C1]; naive_solver. }
      rewrite HeqD in *.
      eapply erase_final_spec; [exact Ht|try done..].
    - (* near child red *)
      rewrite bool_decide_false by done. apply runs_ret. simpl.
      rbind. eapply runs_is_black; [done|exact HtC|].
      destruct B as [|cb b vb B1 B2]; [done|]. simpl in HcB. subst cb.
      assert (exists D1 D2, Node Red b vb B1 B2 = nodeD d Red b vb D1 D2 /\ nored D1 /\ nored D2 /\ bal n D1 /\ bal n D2 /\ tcol D1 = Black /\ tcol D2 = Black)
        as (D1 & D2 & Heq & Hn1 & Hn2 & Hb1 & Hb2 & Hc1 & Hc2).
      { simpl in HnB, HbB. destruct d; [exists B1, B2|exists B2, B1]; naive_solver. }
      destruct (tcol C) eqn:HcC.
      + (* far child red as well *)
        rewrite bool_decide_false by done. rbind. apply runs_ret.
        destruct C as [|cc e ve C1 C2]; [done|]. simpl in HcC. subst cc.
        assert (exists E1 E2, Node Red e ve C1 C2 = nodeD d Red e ve E1 E2 /\ nored E1 /\ nored E2 /\ bal n E1 /\ bal n E2)
          as (E1 & E2 & HeqE & HnE1 & HnE2 & HbE1 & HbE2).
        { simpl in HnC, HbC. destruct d; [exists C1, C2|exists C2, C1]; naive_solver. }
        rewrite HeqE in *.
        eapply erase_final_spec; [exact Ht|try done..].
      + rewrite bool_decide_true by done. rbind. rbind. simpl root. apply runs_deref.
        rewrite Heq in *.
        rbind. eapply (recolorD_spec al hdr _ _ _ (Frame d Black a vw C (Frame (flip d) cx xp vp x k)) d).
        { simpl. rewrite nodeD_flip. exact Ht. }
        intros h1 Ht1. simpl in Ht1. rewrite nodeD_flip in Ht1.
        rbind. eapply (recolorD_spec al hdr _ _ _ (Frame (flip d) cx xp vp x k) d).
        { simpl. rewrite nodeD_flip. exact Ht1. }
        intros h2 Ht2. simpl in Ht2. rewrite nodeD_flip in Ht2.
        rbind. eapply (rotate_spec al hdr _ _ _ (flip d) (Frame (flip d) cx xp vp x k) Red a vw Black b vb C D2 D1).
        { simpl. rewrite !nodeD_flip. exact Ht2. }
        intros h3 Ht3. simpl in Ht3. rewrite !nodeD_flip in Ht3.
        rbind. eapply (runs_get_child_flip al d). { eapply (tin_nodeD al hdr _ _ _ _ _ k). exact Ht3. }
        rewrite root_nodeD. apply runs_deref.
        eapply erase_final_spec; [exact Ht3|try done..].
        intros h' k' x' Ht' He' Hrb. unfold set_heap; simpl. eapply HQ; [done| |done].
        rewrite He', !elems_plug. do 2 f_equal. rewrite !elems_nodeD. by rewrite !ejoin_assoc.
  Qed.

  Lemma erase_loop_spec lm rm cnt hf fuel k x n w (Q : option addr -> W -> Prop) :
    depth k < fuel ->
    tin lm rm cnt (w_heap w) hf (plug k x) ->
    nored (blacken x) -> cnored k -> bal n x -> cbal (S n) k ->
    er_post lm rm cnt hf (plug k x) Q w ->
    runs (erase_loop fuel hdr (root x) (cpar hdr k)) w Q.
  Proof.
    revert k x n w. induction fuel as [|fuel IH]; intros k x n w Hf Ht Hnx Hnk Hbx Hbk HQ; [lia|].
    rewrite erase_loop_S.
    rbind. eapply runs_root; [apply (tin_hdr al hdr _ _ _ _ _ _ Ht)|].
    destruct k as [|d cx xp vp s k].
    { rewrite decide_True by done. apply runs_ret. rewrite <-(set_heap_id w). eapply (HQ _ Top); [done|done|].
      simpl. destruct (tcol x) eqn:Hcx.
      - eapply (rb_plug (S n) Top (blacken x)); [done|done|intros Hc_; by rewrite blacken_col in Hc_|by apply blacken_red|done].
      - eapply (rb_plug n Top (blacken x)); [done|done|intros Hc_; by rewrite blacken_col in Hc_|by rewrite blacken_black|done]. }
    rewrite decide_False; cycle 1.
    { destruct (root x) eqn:Hr.
      - intros Heq. symmetry in Heq. revert Heq. by eapply root_ne.
      - rewrite root_plug, Hr. destruct (croot_in d cx xp vp s k None) as (b & -> & _). done. }
    rbind. eapply runs_is_black; [done|exact Ht|].
    destruct (tcol x) eqn:Hcx.
    { rewrite bool_decide_false by done. simpl. apply runs_ret. rewrite <-(set_heap_id w).
      eapply HQ; [done|done|]. eapply rb_plug; [done|done|intros Hc_; by rewrite blacken_col in Hc_|by apply blacken_red|done]. }
    rewrite bool_decide_true by done. simpl negb. cbv iota.
    rewrite blacken_black in Hnx by done.
    apply cbal_frame in Hbk as [Hbs Hbk]. destruct Hnk as (Hc & Hns & Hnk).
    simpl cpar.
    assert (runs (erase_case d fuel (root x) xp) w Q) as Hcase; cycle 1.
    { assert (forall y, root s = Some y -> root x <> root s) as Hne.
      { intros y Hy Heq. eapply sib_ne; [exact Ht|by rewrite Heq|done]. }
      destruct (bal_cases n d s Hbs) as (c1 & a1 & v1 & A1 & B1 & Heqs).
      rbind. destruct d.
      - eapply (runs_get_child al DL). { eapply (tin_nodeD al hdr _ _ _ _ _ k DL). exact Ht. }
        rewrite decide_True by done. done.
      - eapply (runs_get_child_flip al DR). { eapply (tin_nodeD al hdr _ _ _ _ _ k DR). exact Ht. }
        rewrite decide_False; [done|]. eapply Hne. by rewrite Heqs. }
    unfold erase_case.
    destruct (bal_cases n d s Hbs) as (cw & a & vw & B & C & ->).
    rbind. eapply (runs_get_child_flip al d). { eapply (tin_nodeD al hdr _ _ _ _ _ k). exact Ht. }
    rewrite root_nodeD. rbind. apply runs_deref.
    rbind. eapply (runs_get_color al d).
    { eapply (tin_nodeD al hdr _ _ _ _ _ (Frame (flip d) cx xp vp x k)). simpl. rewrite nodeD_flip. exact Ht. }
    rewrite tcol_nodeD in Hc. rewrite nored_nodeD in Hns. rewrite bal_nodeD in Hbs.
    destruct cw.
    - (* red sibling *)
      rewrite decide_True by done.
      destruct cx; [by destruct Hc|].
      simpl in Hns, Hbs. destruct Hns as (HcBC & HnB & HnC). destruct (HcBC eq_refl) as [HcB HcC]. destruct Hbs as [HbB HbC].
      rbind. rbind. eapply (recolorD_spec al hdr _ _ _ (Frame (flip d) Black xp vp x k) d).
      { simpl. rewrite nodeD_flip. exact Ht. }
      intros h1 Ht1. simpl in Ht1. rewrite nodeD_flip in Ht1.
      rbind. eapply (recolorD_spec al hdr _ _ _ k d); [exact Ht1|]. intros h2 Ht2.
      rbind. eapply (rotate_spec al hdr _ _ _ d k); [exact Ht2|]. intros h3 Ht3.
      destruct (bal_cases n d B HbB) as (cb & b & vb & B1 & B2 & ->).
      rewrite tcol_nodeD in HcB. subst cb. rewrite nored_nodeD in HnB. rewrite bal_nodeD in HbB.
      destruct HnB as (_ & HnB1 & HnB2). destruct HbB as (n' & [= <-] & HbB1 & HbB2).
      rbind. eapply (runs_get_child_flip al d).
      { eapply (tin_nodeD al hdr _ _ _ _ _ (Frame d Black a vw C k)). exact Ht3. }
      rewrite root_nodeD. apply runs_deref.
      simpl up in Hbk.
      eapply (erase_black_spec _ _ _ _ fuel d (Frame d Black a vw C k) Red xp vp x b vb B1 B2 n); [exact Ht3|try done..].
      + intros h' k' x' Ht' He' Hrb. unfold set_heap; simpl. eapply HQ; [done| |done].
        rewrite He'. simpl. rewrite !elems_plug. do 2 f_equal. rewrite !elems_nodeD. by rewrite !ejoin_assoc.
      + intros w' HcB1 HcB2 Ht' Hw'. simpl in Hf. destruct fuel as [|fuel]; [lia|].
        (* one step: the node is red *)
        clear IH. rewrite erase_loop_S. rbind. eapply runs_root; [apply (tin_hdr al hdr _ _ _ _ _ _ Ht')|].
        rewrite decide_False; cycle 1.
        { intros Heq. symmetry in Heq. revert Heq. eapply (root_ne _ _ _ _ _ (Frame d Black a vw C k)); [exact Ht'|done|by rewrite root_nodeD]. }
        rewrite <-(root_nodeD d Red xp vp x (nodeD d Red b vb B1 B2)).
        rbind. eapply runs_is_black; [done|exact Ht'|]. rewrite bool_decide_false by (by rewrite tcol_nodeD). simpl.
        apply runs_ret. rewrite <-(set_heap_id w'), Hw'.
        eapply (HQ (w_heap w') (Frame d Black a vw C k)); [exact Ht'| |].
        * simpl. rewrite !elems_plug. do 2 f_equal. rewrite !elems_nodeD. by rewrite !ejoin_assoc.
        * eapply (rb_plug (S n)); [|done|intros Hc_; by rewrite blacken_col in Hc_| |done].
          -- destruct d; simpl; naive_solver.
          -- apply blacken_red; [by rewrite tcol_nodeD|]. rewrite bal_nodeD. simpl. rewrite bal_nodeD. simpl. done.
    - (* black sibling *)
      rewrite decide_False by done. rbind. apply runs_ret.
      simpl in Hns, Hbs. destruct Hns as (_ & HnB & HnC). destruct Hbs as (n' & [= <-] & HbB & HbC).
      eapply (erase_black_spec _ _ _ _ fuel d k cx xp vp x a vw B C n); [exact Ht|try done..].
      + intros ->. by apply Hc.
      + intros w' HcB HcC Ht' Hw'. simpl in Hf.
        rewrite <-(root_nodeD d cx xp vp x (nodeD d Red a vw B C)).
        assert (bal (up cx n) (nodeD d cx xp vp x (nodeD d Red a vw B C))) as Hb'.
        { apply bal_up; [done|]. rewrite bal_nodeD. done. }
        eapply (IH k _ (up cx n)); [lia|exact Ht'| |done|exact Hb'| |].
        * destruct d; simpl; naive_solver.
        * by destruct cx.
        * intros h' k' x' Hh' He' Hrb. rewrite Hw'. eapply HQ; [done| |done].
          rewrite He'. simpl. rewrite !elems_plug. do 2 f_equal. by rewrite !elems_nodeD.
  Qed.
End fix_.
