(** * Releasing handles in any graph of objects

    Without any assumption on weak members: a release succeeds and keeps the
    invariant, or it touches a control block that has been freed. *)
From Verif Require Export SpProofs.

(** [m] does what [Q] says or (if [b]) reads freed memory. *)
Definition ends {C A} (b : bool) (m : M C A) (w : world C) (Q : A -> world C -> Prop) : Prop :=
  match m w with
  | Done a w' => Q a w'
  | Fault f => b = true /\ f = FFreed
  end.

Section ends.
  Context {C : Type}.
  Implicit Types w : world C.
  Lemma runs_ends {A} b (m : M C A) w Q : runs m w Q -> ends b m w Q.
  Proof. intros (a & w' & E & HQ). unfold ends. by rewrite E. Qed.
  Lemma ends_runs {A} (m : M C A) w Q : ends false m w Q -> runs m w Q.
  Proof. unfold ends. destruct (m w) as [a w'|f] eqn:E; [|by intros [? _]]. intros HQ. by exists a, w'. Qed.
  Lemma ends_bind {A B} b (m : M C A) (k : A -> M C B) w Q : ends b m w (fun a w' => ends b (k a) w' Q) -> ends b (bind m k) w Q.
  Proof. unfold ends, bind. by destruct (m w). Qed.
  Lemma ends_step {A B} b (m : M C A) (k : A -> M C B) w Q : runs m w (fun a w' => ends b (k a) w' Q) -> ends b (bind m k) w Q.
  Proof. intros Hr. apply ends_bind. by apply runs_ends. Qed.
  Lemma ends_ret {A} b (a : A) w (Q : A -> world C -> Prop) : Q a w -> ends b (ret a) w Q.
  Proof. done. Qed.
  Lemma ends_mono {A} b (m : M C A) w (P Q : A -> world C -> Prop) : ends b m w P -> (forall a w', P a w' -> Q a w') -> ends b m w Q.
  Proof. unfold ends. destruct (m w); [|done]. eauto. Qed.
End ends.
Ltac estep := apply ends_step.

Section free.
  Context {V : Type} (cf : cfg V).
  Notation H := (gmap addr (scell V)).
  Notation W := (world (scell V)).
  Implicit Types h : H.
  Implicit Types w : W.
  Implicit Types x y : handle.

  (** Of the blocks [D] whose objects were under destruction, [D'] are left,
      and none of them lost its last weak_ptr. *)
  Record remains h h' (D D' : list addr) : Prop := {
    re_sub d : d ∈ D' -> d ∈ D;
    re_gone d : d ∈ D -> d ∉ D' -> h' !! d = None;
    re_weak d b b' : d ∈ D' -> h !! d = Some (SBlock b) -> h' !! d = Some (SBlock b') -> (0 < cb_weak b)%Z -> (0 < cb_weak b')%Z
  }.
  Definition dels (h h' : H) : Prop := forall a, h !! a = None -> h' !! a = None.
  Lemma dels_shrinks h h' : shrinks h h' -> dels h h'.
  Proof.
    intros [A1 A2] a Ha. destruct (h' !! a) as [[x|b]|] eqn:E; [| |done].
    - apply A1 in E. congruence.
    - apply A2 in E as (b0 & E & _). congruence.
  Qed.
  Lemma remains_trans h1 h2 h3 D1 D2 D3 : shrinks h2 h3 -> (forall d, d ∈ D3 -> exists b, h2 !! d = Some (SBlock b)) ->
    remains h1 h2 D1 D2 -> remains h2 h3 D2 D3 -> remains h1 h3 D1 D3.
  Proof.
    intros Hs Hb [S1 G1 W1] [S2 G2 W2]. split.
    - auto.
    - intros d Hd Hn. destruct (decide (d ∈ D2)) as [Hd2|Hn2]; [by apply G2|]. apply (dels_shrinks _ _ Hs). by apply G1.
    - intros d b b' Hd H1 H3 Hw. destruct (Hb d Hd) as [b2 H2]. eapply (W2 d b2 b'); [done|done|done|]. by eapply (W1 d b b2); [auto|..].
  Qed.
  Lemma remains_refl h D : remains h h D D.
  Proof. split; [done|done|]. intros d b b' _ H1 H2. assert (b' = b) as -> by congruence. done. Qed.

  Lemma ends_get_block w c (Q : _ -> W -> Prop) : (w_heap w !! c = None \/ exists b, w_heap w !! c = Some (SBlock b) /\ Q b w) ->
    ends true (get_block c) w Q.
  Proof.
    unfold ends, get_block, load, get_heap, bind. intros [Hn|(b & Hb & HQ)].
    - by rewrite Hn.
    - by rewrite Hb.
  Qed.

  Lemma ends_weak_release w c x P D (Q : _ -> W -> Prop) :
    inv (w_heap w) (x :: P) D -> refers KWeak c x ->
    (forall h' D', inv h' P D' -> shrinks (w_heap w) h' -> remains (w_heap w) h' D D' -> Q tt (set_heap h' w)) ->
    ends true (weak_release cf c) w Q.
  Proof.
    intros Hi Hx HQ. apply runs_ends. set (h := w_heap w) in *. destruct (inv_tgt_block _ _ _ x c Hi) as [b Hb]; [left|by apply Hx|].
    unfold weak_release. rbind. eapply runs_get_block; [done|]. pose proof Hi as [I1 I2 I3 I4 I5 I6 I7 I8].
    pose proof (refs_drop1 KWeak c KWeak c x P h Hx) as Hr. rewrite decide_True in Hr by done.
    pose proof (refs_drop1 KWeak c KShared c x P h Hx) as Hrs. rewrite decide_False in Hrs by naive_solver.
    pose proof (I4 _ _ Hb) as Hw. rewrite Hr in Hw. pose proof (I3 _ _ Hb) as Hu. rewrite Hrs in Hu.
    rbind. apply runs_assert; [apply bool_decide_eq_true; lia|]. rbind. eapply runs_put_block; [done|].
    set (b' := CB (cb_alloc b) (cb_use b) (cb_weak b - 1) (cb_val b)).
    assert (Hh : handles (<[c:=SBlock b']> h) ≡ₚ handles h) by (by rewrite handles_insert, (handles_take h c _ Hb)).
    assert (Hinv : forall D', (forall d, d <> c -> d ∈ D' <-> d ∈ D) -> (c ∈ D' -> cb_use b = 0%Z) ->
        (c ∉ D' -> (0 < cb_use b + (cb_weak b - 1))%Z) -> inv0 (<[c:=SBlock b']> h) (handles h ++ P) D').
    { intros D' HD Hin Hout. eapply inv0_block; [exact Hi|exact Hb|..].
      - intros y Hy. eapply inv_ok; [exact Hi|]. set_solver.
      - intros k d Hd. rewrite (refs_drop1 KWeak c k d x P h Hx). rewrite decide_False by naive_solver. done.
      - done.
      - simpl. lia.
      - simpl. lia.
      - by apply (I5 _ _ Hb).
      - done.
      - done. }
    destruct (decide _) as [[Hz Hz']|Hnz].
    - unfold destroy_self. rbind. eapply runs_get_block; [apply lookup_insert|]. simpl.
      assert (Hnone : cb_val b = None).
      { destruct (cb_val b) eqn:Ev; [|done]. assert (0 < cb_use b)%Z by (apply (I5 _ _ Hb); rewrite Ev; by eexists). lia. }
      rewrite Hnone. eapply runs_free_cell; [apply lookup_insert|]. simpl. rewrite delete_insert_delete.
      apply (HQ _ (filter (fun d => d <> c) D)).
      + unfold inv. rewrite <-(delete_insert_delete h c (SBlock b')).
        assert (Hperm : handles (delete c (<[c:=SBlock b']> h)) ++ P ≡ₚ handles h ++ P).
        { rewrite (handles_take h c _ Hb). simpl. rewrite Hnone. by rewrite delete_insert_delete. }
        eapply inv0_perm; [symmetry; exact Hperm|]. eapply (inv0_delete _ _ (c :: D)).
        * apply Hinv; [set_solver|done|]. intros Hn. set_solver.
        * apply lookup_insert.
        * intros k. destruct k; lia.
        * intros d. rewrite elem_of_list_filter, elem_of_cons. naive_solver.
      + by eapply shrinks_delete.
      + split.
        * intros d. rewrite elem_of_list_filter. tauto.
        * intros d Hd Hn. rewrite elem_of_list_filter in Hn. destruct (decide (d = c)) as [->|Hne]; [apply lookup_delete|]. tauto.
        * intros d bd bd' Hd H1 H2. apply elem_of_list_filter in Hd as [Hne _]. rewrite lookup_delete_ne in H2 by done. assert (He : Some (SBlock bd') = Some (SBlock bd)) by (etrans; [symmetry; exact H2|exact H1]). by simplify_eq.
    - apply runs_ret. apply (HQ _ D).
      + unfold inv. eapply inv0_perm; [symmetry; apply Permutation_app_tail; exact Hh|].
        apply Hinv; [done|by apply (I6 _ _ Hb)|]. intros Hout. pose proof (I7 _ _ Hb Hout). lia.
      + eapply shrinks_insert; [done|done|by left].
      + split; [done|done|]. intros d bd bd' Hd H1 H2 Hwd. destruct (decide (d = c)) as [->|Hne].
        * rewrite lookup_insert in H2. assert (bd = b) as -> by congruence. simplify_eq. simpl. pose proof (I6 _ _ Hb Hd).
          assert (cb_weak b - 1 <> 0)%Z by (intros ?; by apply Hnz). lia.
        * rewrite lookup_insert_ne in H2 by done. assert (He : Some (SBlock bd') = Some (SBlock bd)) by (etrans; [symmetry; exact H2|exact H1]). by simplify_eq.
  Qed.

  Lemma ends_release fuel : forall w c x P D (Q : _ -> W -> Prop),
    size (lives (w_heap w)) < fuel -> inv (w_heap w) (x :: P) D -> refers KShared c x ->
    (forall h' D', inv h' P D' -> shrinks (w_heap w) h' -> remains (w_heap w) h' D D' ->
       (forall b, w_heap w !! c = Some (SBlock b) -> (0 < cb_weak b)%Z -> exists b', h' !! c = Some (SBlock b') /\ (0 < cb_weak b')%Z) ->
       Q tt (set_heap h' w)) ->
    ends true (release cf fuel c) w Q.
  Proof.
    induction fuel as [|fuel IH]; [lia|]. intros w c x P D Q Hf Hi Hx HQ.
    set (h := w_heap w) in *. destruct (inv_tgt_block _ _ _ x c Hi) as [b Hb]; [left|by apply Hx|].
    pose proof Hi as [I1 I2 I3 I4 I5 I6 I7 I8].
    pose proof (refs_drop1 KShared c KShared c x P h Hx) as Hr. rewrite decide_True in Hr by done.
    pose proof (refs_drop1 KShared c KWeak c x P h Hx) as Hrs. rewrite decide_False in Hrs by naive_solver.
    pose proof (I3 _ _ Hb) as Hu. rewrite Hr in Hu. pose proof (I4 _ _ Hb) as Hw. rewrite Hrs in Hw.
    assert (HcD : c ∉ D) by (intros HcD; pose proof (I6 _ _ Hb HcD); lia).
    assert (Hval : is_Some (cb_val b)) by (apply (I5 _ _ Hb); lia). destruct Hval as [[v hs] Hval].
    assert (Hok : forall y, y ∈ handles h ++ P -> h_ptr y = h_rc y /\ forall d, h_rc y = Some d -> is_block h d).
    { intros y Hy. eapply inv_ok; [exact Hi|]. set_solver. }
    assert (Hoth : forall k d, d <> c -> refs k d (handles h ++ P) = refs k d (handles h ++ x :: P)).
    { intros k d Hd. rewrite (refs_drop1 KShared c k d x P h Hx). rewrite decide_False by naive_solver. done. }
    cbn [release]. estep. eapply runs_get_block; [done|]. estep. apply runs_assert; [apply bool_decide_eq_true; lia|].
    estep. eapply runs_put_block; [done|]. destruct (decide _) as [Hz|Hnz].
    - apply ends_bind. estep. eapply runs_get_block; [apply lookup_insert|]. cbn [cb_val cb_alloc cb_use cb_weak]. rewrite Hval.
      estep. eapply runs_put_block; [apply lookup_insert|]. simpl. rewrite insert_insert.
      set (b1 := CB (cb_alloc b) (cb_use b - 1) (cb_weak b) None). set (h1 := <[c:=SBlock b1]> h).
      change (ends true (release_members cf fuel hs) (set_heap h1 w) (fun _ w' =>
        ends true (let! b0 := get_block c in if decide (cb_weak b0 = 0%Z) then destroy_self c else ret tt) w' Q)).
      assert (Hperm : handles h1 ++ hs ++ P ≡ₚ handles h ++ P).
      { unfold h1. rewrite handles_insert, (handles_take h c _ Hb). simpl. rewrite Hval. rewrite Permutation_app_comm, (Permutation_app_comm hs P), <-(assoc_L (++)), (Permutation_app_comm _ P). done. }
      assert (Hi1 : inv h1 (hs ++ P) (c :: D)).
      { unfold inv. eapply inv0_perm; [symmetry; exact Hperm|]. eapply inv0_block; [exact Hi|exact Hb|exact Hok|exact Hoth|..].
        - set_solver.
        - simpl. lia.
        - simpl. lia.
        - simpl. split; [intros [? ?]; done|lia].
        - simpl. lia.
        - intros Hn. set_solver. }
      assert (Hs1 : shrinks h h1) by (eapply shrinks_insert; [done|done|by right]).
      assert (Hlive : size (lives h1) < fuel).
      { assert (Hsub : lives h1 ⊂ lives h); [|apply subset_size in Hsub; lia]. split; [by apply lives_shrinks|].
        intros Hsub. assert (Hc : c ∈ lives h1) by (apply Hsub; apply elem_of_lives; exists b; by rewrite Hval).
        apply elem_of_lives in Hc as (b' & Hb' & Hs). unfold h1 in Hb'. rewrite lookup_insert in Hb'. simplify_eq. by destruct Hs. }
      (* the members *)
      assert (Hgo : forall h2 D2, inv h2 (hs ++ P) D2 -> shrinks h1 h2 -> remains h1 h2 (c :: D) D2 ->
         ends true (release_members cf fuel hs) (set_heap h2 w) (fun _ w' => exists h3 D3, w' = set_heap h3 w /\ inv h3 P D3 /\ shrinks h1 h3 /\ remains h1 h3 (c :: D) D3)).
      { clear Hi1 Hperm Hval. induction hs as [|y hs IHm]; intros h2 D2 Hi2 Hs2 Hre2.
        { simpl. apply ends_ret. by exists h2, D2. }
        simpl. apply ends_bind. assert (Hrest : forall h3 D3, inv h3 (hs ++ P) D3 -> shrinks h2 h3 -> remains h2 h3 D2 D3 ->
           ends true (release_members cf fuel hs) (set_heap h3 w) (fun _ w' => exists h3 D3, w' = set_heap h3 w /\ inv h3 P D3 /\ shrinks h1 h3 /\ remains h1 h3 (c :: D) D3)).
        { intros h3 D3 Hi3 Hs3 Hre3. apply (IHm h3 D3); [done|by eapply shrinks_trans|]. eapply remains_trans; [exact Hs3| |exact Hre2|exact Hre3].
          intros d Hd. apply (i_blk _ _ _ Hi2). by apply (re_sub _ _ _ _ Hre3). }
        destruct (h_rc y) as [d|] eqn:Hyd.
        - destruct (h_kind y) eqn:Hyk.
          + assert (Hyr : refers KShared d y) by done. eapply IH.
            * simpl. eapply Nat.le_lt_trans; [|exact Hlive]. apply subseteq_size. by apply lives_shrinks.
            * exact Hi2.
            * exact Hyr.
            * intros h3 D3 Hi3 Hs3 Hre3 _. simpl. by apply (Hrest h3 D3).
          + assert (Hyr : refers KWeak d y) by done. eapply ends_weak_release; [exact Hi2|exact Hyr|..].
            intros h3 D3 Hi3 Hs3 Hre3. simpl. by apply (Hrest h3 D3).
        - apply ends_ret. apply (Hrest h2 D2); [|apply shrinks_refl|apply remains_refl].
          assert (Hp : h_ptr y = None) by (rewrite <-Hyd; eapply inv_ok; [exact Hi2|set_solver]).
          apply (inv_null _ (h_kind y)). destruct y; simpl in *; subst. exact Hi2. }
      eapply ends_mono; [apply (Hgo h1 (c :: D)); [exact Hi1|apply shrinks_refl|apply remains_refl]|].
      intros [] w' (h3 & D3 & -> & Hi3 & Hs3 & Hre3). clear Hgo. apply ends_bind. apply ends_get_block. simpl.
      destruct (decide (c ∈ D3)) as [HcD3|HcD3]; [right|left; apply (re_gone _ _ _ _ Hre3); [left|done]].
      pose proof Hi3 as [J1 J2 J3 J4 J5 J6 J7 J8]. destruct (J8 c HcD3) as [b3 Hb3]. exists b3. split; [done|].
      assert (Hs : shrinks h h3) by (by eapply shrinks_trans). pose proof (J6 _ _ Hb3 HcD3) as Hu3.
      assert (Hnone : cb_val b3 = None).
      { destruct (cb_val b3) eqn:Ev; [|done]. assert (0 < cb_use b3)%Z by (apply (J5 _ _ Hb3); rewrite Ev; by eexists). lia. }
      set (D4 := filter (fun d => d <> c) D3).
      assert (HD4 : forall d, d ∈ D4 <-> d ∈ D3 /\ d <> c) by (intros d; unfold D4; rewrite elem_of_list_filter; tauto).
      assert (Hwk : (0 < cb_weak b)%Z -> (0 < cb_weak b3)%Z).
      { intros Hp. eapply (re_weak _ _ _ _ Hre3 c b1 b3); [done|apply lookup_insert|done|done]. }
      assert (Hre : remains h h3 D D4).
      { split.
        - intros d Hd. apply HD4 in Hd as [Hd Hn]. apply (re_sub _ _ _ _ Hre3) in Hd. set_solver.
        - intros d Hd Hn. apply (re_gone _ _ _ _ Hre3); [by right|]. intros Hd3. apply Hn. apply HD4. split; [done|]. by intros ->.
        - intros d bd bd' Hd H1 H2. apply HD4 in Hd as [Hd Hn]. eapply (re_weak _ _ _ _ Hre3 d bd bd'); [done| |done].
          unfold h1. by rewrite lookup_insert_ne. }
      destruct (decide _) as [Hw3|Hw3].
      + unfold destroy_self. estep. eapply runs_get_block; [exact Hb3|]. rewrite Hnone. apply runs_ends. eapply runs_free_cell; [exact Hb3|].
        simpl. apply (HQ _ D4).
        * unfold inv. assert (Hperm' : handles (delete c h3) ++ P ≡ₚ handles h3 ++ P).
          { rewrite (handles_take h3 c _ Hb3). simpl. by rewrite Hnone. }
          eapply inv0_perm; [symmetry; exact Hperm'|]. eapply (inv0_delete _ _ D3); [exact Hi3|exact Hb3|..].
          -- pose proof (J3 _ _ Hb3). pose proof (J4 _ _ Hb3). intros []; lia.
          -- exact HD4.
        * eapply shrinks_trans; [exact Hs|]. by eapply shrinks_delete.
        * destruct Hre as [R1 R2 R3]. split; [done|..].
          -- intros d Hd Hn. apply (dels_shrinks h3); [by eapply shrinks_delete|]. auto.
          -- intros d bd bd' Hd H1 H2. apply lookup_delete_Some in H2 as [_ H2]. eauto.
        * intros b0 Hb0 Hw0. assert (b0 = b) as -> by congruence. specialize (Hwk Hw0). lia.
      + apply ends_ret. apply (HQ _ D4); [|exact Hs|exact Hre|].
        * destruct Hi3 as [K1 K2 K3 K4 K5 K6 K7 K8]. split; try done.
          -- intros d bd Hd HdD. apply HD4 in HdD as [HdD _]. by eapply K6.
          -- intros d bd Hd HdD. destruct (decide (d = c)) as [->|Hn].
             ++ assert (bd = b3) as -> by congruence. pose proof (J4 _ _ Hb3). lia.
             ++ eapply K7; [done|]. intros HdD3. apply HdD. by apply HD4.
          -- intros d Hd. apply HD4 in Hd as [Hd _]. by apply K8.
        * intros b0 Hb0 Hw0. assert (b0 = b) as -> by congruence. exists b3. auto.
    - apply ends_ret. simpl. set (b' := CB (cb_alloc b) (cb_use b - 1) (cb_weak b) (cb_val b)). apply (HQ _ D).
      + assert (Hh : handles (<[c:=SBlock b']> h) ≡ₚ handles h) by (by rewrite handles_insert, (handles_take h c _ Hb)).
        unfold inv. eapply inv0_perm; [symmetry; apply Permutation_app_tail; exact Hh|].
        eapply inv0_block; [exact Hi|exact Hb|exact Hok|exact Hoth|..]; simpl.
        * done.
        * lia.
        * lia.
        * rewrite Hval. split; [lia|by eexists].
        * done.
        * lia.
      + eapply shrinks_insert; [done|done|by left].
      + split; [done|done|]. intros d bd bd' Hd H1 H2. rewrite lookup_insert_ne in H2; [|by intros ->]. assert (He : Some (SBlock bd') = Some (SBlock bd)) by (etrans; [symmetry; exact H2|exact H1]). by simplify_eq.
      + intros b0 Hb0 Hw0. assert (b0 = b) as -> by congruence. exists b'. split; [apply lookup_insert|done].
  Qed.

  (** Destroying a handle in a state without objects under destruction; a block
      that had weak_ptrs still has some. *)
  Lemma ends_destroy w x P (Q : _ -> W -> Prop) :
    inv (w_heap w) (x :: P) [] ->
    (forall h', inv h' P [] -> shrinks (w_heap w) h' ->
       (forall c b, refers KShared c x -> w_heap w !! c = Some (SBlock b) -> (0 < cb_weak b)%Z ->
          exists b', h' !! c = Some (SBlock b') /\ (0 < cb_weak b')%Z) ->
       Q tt (set_heap h' w)) ->
    ends true (destroy_handle cf x) w Q.
  Proof.
    intros Hi HQ. assert (HD : forall h' D', inv h' P D' -> remains (w_heap w) h' [] D' -> inv h' P []).
    { intros h' D' Hi' Hre. assert (D' = []) as ->; [|done]. destruct D' as [|d D']; [done|]. exfalso.
      apply (not_elem_of_nil d). apply (re_sub _ _ _ _ Hre). left. }
    unfold destroy_handle. destruct (h_rc x) as [c|] eqn:Hx.
    - destruct (h_kind x) eqn:Hk.
      + unfold release_top. estep. apply runs_get_heap. eapply ends_release; [|exact Hi|by split|].
        * pose proof (lives_size (w_heap w)). lia.
        * intros h' D' Hi' Hs Hre Hw. apply HQ; [by eapply HD|done|]. intros c' b [_ Hc'] Hb Hp. assert (c' = c) as -> by congruence. by eapply Hw.
      + eapply ends_weak_release; [exact Hi|done|]. intros h' D' Hi' Hs Hre. apply HQ; [by eapply HD|done|].
        intros c' b [Hk' _]. congruence.
    - apply ends_ret. assert (Hp : h_ptr x = None) by (rewrite <-Hx; eapply inv_ok; [exact Hi|set_solver]).
      enough (HQw : Q tt (set_heap (w_heap w) w)) by (by destruct w). apply HQ; [|apply shrinks_refl|].
      + apply (inv_null _ (h_kind x)). destruct x; simpl in *; subst. exact Hi.
      + intros c b [_ Hc]. congruence.
  Qed.
End free.
