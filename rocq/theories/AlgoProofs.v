(** * The algorithms meet their specification *)
From Verif Require Export AlgoSpec VecProofs.

Section proofs.
  Context {V : Type} (cf : cfg V) (torn : nat -> V -> V -> V).
  Notation H := (gmap addr (vblock V)).
  Notation W := (world (vblock V)).
  Implicit Types w : W.

  (** [h'] with one more object overwritten *)
  Definition ow (h : H) b o v : H :=
    alter (fun blk => Block (b_alloc blk) (b_req blk) (b_room blk) (<[o:=v]> (b_live blk))) b h.

  Lemma slot_ow (h : H) b o v b' o' : is_Some (slot h b o) ->
    slot (ow h b o v) b' o' = if decide (b' = b /\ o' = o) then Some v else slot h b' o'.
  Proof.
    intros [v0 Hs]. unfold slot in *. unfold ow. destruct (decide (b' = b)) as [->|Hb].
    - rewrite lookup_alter. destruct (h !! b) as [blk|]; [|done]. simpl.
      destruct (decide (o' = o)) as [->|Ho].
      + rewrite decide_True by done. by rewrite lookup_insert.
      + rewrite decide_False by naive_solver. by rewrite lookup_insert_ne.
    - rewrite lookup_alter_ne by done. rewrite decide_False by naive_solver. done.
  Qed.
  Lemma blocks_ow (h : H) b o v : same_blocks h (ow h b o v).
  Proof.
    intros b'. unfold ow. destruct (decide (b' = b)) as [->|Hb].
    - rewrite lookup_alter. by destruct (h !! b).
    - by rewrite lookup_alter_ne.
  Qed.

  Lemma runs_read_slot w b o v n (Q : _ -> W -> Prop) :
    (exists blk, w_heap w !! b = Some blk /\ o + S n <= b_room blk) -> slot (w_heap w) b o = Some v ->
    Q v w -> runs (read (Ptr b o)) w Q.
  Proof.
    intros (blk & Hb & Hr) Hs HQ. unfold slot in Hs. rewrite Hb in Hs. simpl in Hs.
    eapply runs_read; [done|lia|done|done].
  Qed.
  Lemma runs_overwrite_slot w b o v v0 n (Q : _ -> W -> Prop) :
    (exists blk, w_heap w !! b = Some blk /\ o + S n <= b_room blk) -> slot (w_heap w) b o = Some v0 ->
    Q tt (set_heap (ow (w_heap w) b o v) w) -> runs (overwrite (Ptr b o) v) w Q.
  Proof.
    intros (blk & Hb & Hr) Hs HQ. unfold slot in Hs. rewrite Hb in Hs. simpl in Hs.
    eapply runs_overwrite; [done|lia|done|]. unfold ow in HQ.
    assert (Heq : alter (fun blk => Block (b_alloc blk) (b_req blk) (b_room blk) (<[o:=v]> (b_live blk))) b (w_heap w) =
      <[b:=Block (b_alloc blk) (b_req blk) (b_room blk) (<[o:=v]> (b_live blk))]> (w_heap w)).
    { apply map_eq. intros b'. destruct (decide (b' = b)) as [->|Hn].
      - rewrite lookup_alter, lookup_insert, Hb. done.
      - by rewrite lookup_alter_ne, lookup_insert_ne. }
    by rewrite Heq in HQ.
  Qed.
  Lemma runs_padd_room w b o n (Q : _ -> W -> Prop) :
    (exists blk, w_heap w !! b = Some blk /\ o + S n <= b_room blk) ->
    Q (Ptr b (S o)) w -> runs (padd (Ptr b o) 1) w Q.
  Proof.
    intros (blk & Hb & Hr) HQ. eapply runs_padd; [done|lia|]. by replace (o + 1) with (S o) by lia.
  Qed.

  Lemma room_same (h h' : H) b n : same_blocks h h' ->
    (exists blk, h !! b = Some blk /\ n <= b_room blk) -> exists blk, h' !! b = Some blk /\ n <= b_room blk.
  Proof.
    intros Hs (blk & Hb & Hr). specialize (Hs b). rewrite Hb in Hs. simpl in Hs.
    destruct (h' !! b) as [blk'|]; simpl in Hs; [|done]. exists blk'. split; [done|]. simplify_eq. congruence.
  Qed.

  Lemma runs_assign_at w bs i x bd j y n m (Q : _ -> W -> Prop) :
    (exists blk, w_heap w !! bs = Some blk /\ i + S n <= b_room blk) -> slot (w_heap w) bs i = Some x ->
    (exists blk, w_heap w !! bd = Some blk /\ j + S m <= b_room blk) -> slot (w_heap w) bd j = Some y ->
    w_err w = None ->
    (forall w', w_heap w' = ow (w_heap w) bd j x -> w_err w' = None -> Q tt w') ->
    (forall w' z code, c_kind cf <> Nothrow -> w_heap w' = ow (w_heap w) bd j z -> w_err w' = Some (EElem code) -> Q tt w') ->
    runs (assign_at cf torn (Ptr bd j) (Ptr bs i)) w Q.
  Proof.
    intros Hrs Hss Hrd Hsd He Hok Hfail. unfold assign_at. rbind. eapply runs_read_slot; [done..|].
    assert (Hev : c_kind cf <> Nothrow ->
      runs (let! ev := next_event in
            match ev with
            | EvOk _ => overwrite (Ptr bd j) x
            | EvFail code =>
                let! old := read (Ptr bd j) in
                do! overwrite (Ptr bd j) (torn code old x) in
                put_err (Some (EElem code))
            end) w Q).
    { intros Hk. rbind. apply runs_next_event. intros ev o. destruct ev as [code|hint].
      - rbind. eapply runs_read_slot; [done..|]. rbind. eapply runs_overwrite_slot; [done..|]. apply runs_put_err.
        by eapply Hfail.
      - eapply runs_overwrite_slot; [done..|]. by apply Hok. }
    destruct (c_kind cf) eqn:Hk; [|by apply Hev..].
    eapply runs_overwrite_slot; [done..|]. by apply Hok.
  Qed.

  Lemma stored_refl (h : H) b o : stored h h b o [].
  Proof.
    split; [done|]. intros b' o'. rewrite decide_False; [done|]. simpl. lia.
  Qed.
  Lemma stored_snoc (h h' : H) b o vs v : stored h h' b o vs -> is_Some (slot h b (o + length vs)) ->
    stored h (ow h' b (o + length vs) v) b o (vs ++ [v]).
  Proof.
    intros [Hs Hv] Hl. split.
    { intros b'. by rewrite (blocks_ow h' b (o + length vs) v b'). }
    intros b' o'. rewrite slot_ow.
    2: { rewrite Hv, decide_False; [done|lia]. }
    rewrite app_length. simpl. destruct (decide (b' = b /\ o' = o + length vs)) as [[-> ->]|Hn].
    - rewrite decide_True by lia. replace (o + length vs - o) with (length vs) by lia.
      by rewrite list_lookup_middle.
    - rewrite Hv. destruct (decide (b' = b /\ o <= o' < o + length vs)) as [[-> Ho]|Hn2].
      + rewrite decide_True by lia. rewrite lookup_app_l by lia. done.
      + rewrite decide_False; [done|]. intros [-> Ho]. destruct (decide (o' = o + length vs)) as [->|]; [naive_solver|].
        apply Hn2. split; [done|]. lia.
  Qed.

  Lemma filter_le (p : V -> bool) l : length (List.filter p l) <= length l.
  Proof. induction l as [|x l IH]; simpl; [lia|]. destruct (p x); simpl; lia. Qed.

  Lemma runs_copy_if_loop pred fuel w bs i l r bd j h (Q : _ -> W -> Prop) :
    length r < fuel -> w_err w = None ->
    objs h bs i (l ++ r) ->
    (exists blk, h !! bd = Some blk /\ j + length (List.filter pred (l ++ r)) <= b_room blk) ->
    (forall k, k < length (List.filter pred (l ++ r)) -> is_Some (slot h bd (j + k))) ->
    (bs <> bd \/ j <= i \/ i + length (l ++ r) <= j) ->
    stored h (w_heap w) bd j (List.filter pred l) ->
    (forall w', stored h (w_heap w') bd j (List.filter pred (l ++ r)) -> w_err w' = None ->
       Q (Ptr bd (j + length (List.filter pred (l ++ r)))) w') ->
    (forall w' k x code, k < length (List.filter pred (l ++ r)) -> c_kind cf <> Nothrow -> w_err w' = Some (EElem code) ->
       stored h (w_heap w') bd j (take k (List.filter pred (l ++ r)) ++ [x]) -> Q (Ptr bd (j + k)) w') ->
    runs (copy_if_loop cf torn pred fuel (Ptr bs (i + length l)) (Ptr bs (i + length (l ++ r))) (Ptr bd (j + length (List.filter pred l)))) w Q.
  Proof.
    revert w l r. induction fuel as [|fuel IH]; intros w l r Hf He Hsrc Hrd Hlive Hov Hst Hok Hfail; [lia|]. simpl.
    destruct r as [|x r].
    - rewrite app_nil_r in *. rewrite decide_True by done. apply runs_ret. by apply Hok.
    - rewrite decide_False by (rewrite app_length; simpl; intros ?; simplify_eq; lia).
      destruct Hst as [Hsh Hst].
      assert (Hrs' : exists blk, w_heap w !! bs = Some blk /\ i + length l + S (length r) <= b_room blk).
      { eapply room_same; [done|]. destruct Hsrc as [(blk & ? & Hr) _]. exists blk. split; [done|].
        rewrite app_length in Hr. simpl in Hr. lia. }
      assert (Hcount : length (List.filter pred l) <= length l) by apply filter_le.
      assert (Hx : slot (w_heap w) bs (i + length l) = Some x).
      { rewrite Hst, decide_False.
        - apply Hsrc. by apply list_lookup_middle.
        - intros [-> Ho]. rewrite app_length in Hov. simpl in Hov. destruct Hov as [?|[?|?]]; [done|lia|lia]. }
      rbind. eapply runs_read_slot; [done..|].
      assert (Happ : l ++ x :: r = (l ++ [x]) ++ r) by (by rewrite <-(assoc_L (++))).
      assert (Hlen : S (i + length l) = i + length (l ++ [x])) by (rewrite app_length; simpl; lia).
      destruct (pred x) eqn:Hp.
      + assert (Hfx : List.filter pred (l ++ [x]) = List.filter pred l ++ [x]).
        { rewrite List.filter_app. simpl. by rewrite Hp. }
        assert (Hfa : List.filter pred (l ++ x :: r) = List.filter pred l ++ x :: List.filter pred r).
        { rewrite Happ, List.filter_app, Hfx. by rewrite <-(assoc_L (++)). }
        assert (Hlt : length (List.filter pred l) < length (List.filter pred (l ++ x :: r))).
        { rewrite Hfa, app_length. simpl. lia. }
        destruct (Hlive _ Hlt) as [y Hy].
        assert (Hrd' : exists blk, w_heap w !! bd = Some blk /\ j + length (List.filter pred l) + S (length (List.filter pred r)) <= b_room blk).
        { eapply room_same; [done|]. destruct Hrd as (blk & ? & Hr). exists blk. split; [done|].
          rewrite Hfa, app_length in Hr. simpl in Hr. lia. }
        rbind. eapply runs_assign_at; [done..| |done| |].
        { rewrite Hst, decide_False by lia. done. }
        * intros w' Hw' He'. rbind. apply runs_has_err. rewrite He'. rbind. eapply runs_padd_room.
          { eapply room_same; [|exact Hrd']. rewrite Hw'. apply blocks_ow. }
          rbind. eapply runs_padd_room.
          { eapply room_same; [|exact Hrs']. rewrite Hw'. apply blocks_ow. }
          assert (Hlen2 : S (j + length (List.filter pred l)) = j + length (List.filter pred (l ++ [x]))).
          { rewrite Hfx, app_length. simpl. lia. }
          rewrite Hlen, Hlen2. rewrite Happ. rewrite Happ in Hsrc, Hrd, Hlive, Hov, Hok, Hfail.
          apply IH; try done.
          { simpl in Hf. lia. }
          rewrite Hw', Hfx. apply stored_snoc; [done|]. by exists y.
        * intros w' z code Hk Hw' He'. rbind. apply runs_has_err. rewrite He'. apply runs_ret.
          eapply (Hfail _ _ z code); [exact Hlt|done|done|]. rewrite Hfa, take_app. rewrite Hw'.
          apply stored_snoc; [done|]. by exists y.
      + assert (Hfx : List.filter pred (l ++ [x]) = List.filter pred l).
        { rewrite List.filter_app. simpl. by rewrite Hp, app_nil_r. }
        rbind. eapply runs_padd_room; [done|].
        rewrite Hlen, <-Hfx. rewrite Happ. rewrite Happ in Hsrc, Hrd, Hlive, Hov, Hok, Hfail.
        apply IH; try done.
        { simpl in Hf. lia. }
        by rewrite Hfx.
  Qed.

  Lemma read_twice p w : (let! _ := read p in read p) w = read (V := V) p w.
  Proof.
    unfold bind. destruct (read p w) as [v w'|f] eqn:E; [|done].
    assert (w' = w) as ->; [|done]. clear -E. unfold read, load_block, load, bind, get_heap, ret, fail in E.
    repeat case_match; by simplify_eq.
  Qed.
  Lemma copy_loop_if fuel first last d w :
    copy_loop cf torn fuel first last d w = copy_if_loop cf torn (fun _ => true) fuel first last d w.
  Proof.
    revert first d w. induction fuel as [|fuel IH]; intros first d w; [done|]. simpl.
    destruct (decide (first = last)); [done|].
    assert (Hb : forall B (k : M (vblock V) B), (let! _ := read first in do! assign_at cf torn d first in k) w = (do! assign_at cf torn d first in k) w).
    { intros B k. unfold assign_at. pose proof (read_twice first w) as Ht. unfold bind in *.
      destruct (read first w) as [v w'|f] eqn:E; [|done]. rewrite Ht. done. }
    etrans; [|symmetry; apply Hb].
    unfold bind. destruct (assign_at cf torn d first w) as [? w1|]; [|done].
    unfold has_err. destruct (w_err w1); [done|].
    destruct (padd d 1 w1) as [d' w2|]; [|done]. destruct (padd first 1 w2) as [f' w3|]; [|done]. apply IH.
  Qed.

  Lemma filter_all_true (l : list V) : List.filter (fun _ => true) l = l.
  Proof.
    induction l as [|x l IH]; [done|]. simpl. by rewrite IH.
  Qed.

  (** ** Comparisons *)

  Lemma runs_equal_loop p fuel w b1 i l b2 j r (Q : _ -> W -> Prop) :
    length l < fuel -> objs (w_heap w) b1 i l -> objs (w_heap w) b2 j r -> length l <= length r ->
    Q (forallb (fun xy => p xy.1 xy.2) (zip l r)) w ->
    runs (equal_loop p fuel (Ptr b1 i) (Ptr b1 (i + length l)) (Ptr b2 j)) w Q.
  Proof.
    revert i l j r. induction fuel as [|fuel IH]; intros i l j r Hf H1 H2 Hl HQ; [lia|]. simpl.
    destruct l as [|x l].
    - simpl. rewrite decide_True by (f_equal; lia). by apply runs_ret.
    - rewrite decide_False by (simpl; intros ?; simplify_eq; lia). destruct r as [|y r]; [simpl in Hl; lia|].
      assert (Hr1 : exists blk, w_heap w !! b1 = Some blk /\ i + S (length l) <= b_room blk) by apply H1.
      assert (Hr2 : exists blk, w_heap w !! b2 = Some blk /\ j + S (length r) <= b_room blk) by apply H2.
      rbind. eapply runs_read_slot; [done| |].
      { rewrite <-(Nat.add_0_r i). by apply H1. }
      rbind. eapply runs_read_slot; [done| |].
      { rewrite <-(Nat.add_0_r j). by apply H2. }
      simpl in HQ. destruct (p x y); simpl in HQ.
      + rbind. eapply runs_padd_room; [done|]. rbind. eapply runs_padd_room; [done|].
        replace (i + length (x :: l)) with (S i + length l) by (simpl; lia).
        eapply (IH _ _ _ r); [simpl in Hf; lia| | |simpl in Hl; lia|done].
        * destruct H1 as [_ H1]. split; [destruct Hr1 as (blk & ? & ?); exists blk; split; [done|lia]|].
          intros k v Hk. replace (S i + k) with (i + S k) by lia. by apply H1.
        * destruct H2 as [_ H2]. split; [destruct Hr2 as (blk & ? & ?); exists blk; split; [done|lia]|].
          intros k v Hk. replace (S j + k) with (j + S k) by lia. by apply H2.
      + by apply runs_ret.
  Qed.

  Fixpoint lexb (comp : V -> V -> bool) (l r : list V) : bool :=
    match l, r with
    | _, [] => false
    | [], _ => true
    | x :: l, y :: r => if comp x y then true else if comp y x then false else lexb comp l r
    end.

  Lemma runs_lex_loop comp fuel w b1 i l b2 j r (Q : _ -> W -> Prop) :
    length l < fuel -> objs (w_heap w) b1 i l -> objs (w_heap w) b2 j r ->
    Q (lexb comp l r) w ->
    runs (lex_loop comp fuel (Ptr b1 i) (Ptr b1 (i + length l)) (Ptr b2 j) (Ptr b2 (j + length r))) w Q.
  Proof.
    revert i l j r. induction fuel as [|fuel IH]; intros i l j r Hf H1 H2 HQ; [lia|]. simpl.
    destruct l as [|x l].
    { simpl. rewrite decide_False by (intros [Hn _]; apply Hn; f_equal; lia). apply runs_ret.
      destruct r as [|y r]; simpl in *.
      - rewrite bool_decide_false; [done|]. intros [_ Hn]. apply Hn. f_equal. lia.
      - rewrite bool_decide_true; [done|]. split; [f_equal; lia|]. intros ?; simplify_eq; lia. }
    destruct r as [|y r].
    { rewrite decide_False by (intros [_ Hn]; apply Hn; f_equal; simpl; lia). apply runs_ret.
      rewrite bool_decide_false; [done|]. intros [_ Hn]. apply Hn. f_equal. simpl. lia. }
    rewrite decide_True by (simpl; split; intros ?; simplify_eq; lia).
    assert (Hr1 : exists blk, w_heap w !! b1 = Some blk /\ i + S (length l) <= b_room blk) by apply H1.
    assert (Hr2 : exists blk, w_heap w !! b2 = Some blk /\ j + S (length r) <= b_room blk) by apply H2.
    assert (Hx : slot (w_heap w) b1 i = Some x) by (rewrite <-(Nat.add_0_r i); by apply H1).
    assert (Hy : slot (w_heap w) b2 j = Some y) by (rewrite <-(Nat.add_0_r j); by apply H2).
    rbind. eapply runs_read_slot; [done..|]. rbind. eapply runs_read_slot; [done..|].
    simpl in HQ. destruct (comp x y); [by apply runs_ret|].
    rbind. eapply runs_read_slot; [done..|]. rbind. eapply runs_read_slot; [done..|].
    destruct (comp y x); [by apply runs_ret|].
    rbind. eapply runs_padd_room; [done|]. rbind. eapply runs_padd_room; [done|].
    replace (i + length (x :: l)) with (S i + length l) by (simpl; lia).
    replace (j + length (y :: r)) with (S j + length r) by (simpl; lia).
    eapply (IH _ _ _ r); [simpl in Hf; lia| | |done].
    - destruct H1 as [_ H1]. split; [destruct Hr1 as (blk & ? & ?); exists blk; split; [done|lia]|].
      intros k v Hk. replace (S i + k) with (i + S k) by lia. by apply H1.
    - destruct H2 as [_ H2]. split; [destruct Hr2 as (blk & ? & ?); exists blk; split; [done|lia]|].
      intros k v Hk. replace (S j + k) with (j + S k) by lia. by apply H2.
  Qed.

  (** [comp x y] holds in one direction at most *)
  Lemma lexb_less comp l r : (forall x y, comp x y = true -> comp y x = false) -> lexb comp l r = true <-> lex_less comp l r.
  Proof.
    intros Has. split.
    - revert r. induction l as [|x l IH]; intros [|y r] Hb; simpl in Hb; [done| |done|].
      + exists 0. split; [lia|]. right. by split.
      + destruct (comp x y) eqn:E1.
        { exists 0. split; [lia|]. left. by exists x, y. }
        destruct (comp y x) eqn:E2; [done|]. destruct (IH _ Hb) as (k & Hk & Hd). exists (S k). split; [|done].
        intros [|i] Hi; [|apply Hk; lia]. exists x, y. unfold same_rank. by rewrite E1, E2.
    - intros (k & Hk & Hd). revert l r Hk Hd. induction k as [|k IH]; intros l r Hk Hd.
      + destruct Hd as [(x & y & Hx & Hy & Hc)|[Hn [y Hy]]].
        * destruct l; [done|]. destruct r; [done|]. simplify_eq/=. by rewrite Hc.
        * destruct l; [|done]. by destruct r.
      + destruct (Hk 0 ltac:(lia)) as (x & y & Hx & Hy & Hs). destruct l as [|x' l]; [done|]. destruct r as [|y' r]; [done|].
        simplify_eq/=. unfold same_rank in Hs. apply andb_true_iff in Hs as [Hs1 Hs2].
        rewrite negb_true_iff in Hs1, Hs2. rewrite Hs1, Hs2. apply IH; [|done].
        intros i Hi. apply (Hk (S i)). lia.
  Qed.

  Lemma swo_asym comp x y : swo comp -> comp x y = true -> comp (y : V) x = false.
  Proof.
    intros (Hi & Ht & _) Hc. destruct (comp y x) eqn:E; [|done]. specialize (Ht x y x Hc E). by rewrite Hi in Ht.
  Qed.

  Lemma lexb_swo comp : swo comp -> swo (lexb comp).
  Proof.
    intros Hw. pose proof Hw as (Hi & Ht & Hc). split_and!.
    - intros l. induction l as [|x l IH]; [done|]. simpl. by rewrite Hi.
    - intros l. induction l as [|x l IH]; intros [|y m] [|z r] H1 H2; simpl in *; try done.
      destruct (comp x y) eqn:Exy.
      + destruct (comp y z) eqn:Eyz; [by rewrite (Ht _ _ _ Exy Eyz)|].
        destruct (comp z y) eqn:Ezy; [done|].
        destruct (Hc x y z Exy) as [->|Hn]; [done|congruence].
      + destruct (comp y x) eqn:Eyx; [done|].
        destruct (comp y z) eqn:Eyz.
        * destruct (Hc y z x Eyz) as [Hn|Hn]; [congruence|by rewrite Hn].
        * destruct (comp z y) eqn:Ezy; [done|].
          destruct (comp x z) eqn:Exz; [done|].
          destruct (comp z x) eqn:Ezx.
          { destruct (Hc z x y Ezx) as [Hn|Hn]; congruence. }
          by eapply IH.
    - intros l. induction l as [|x l IH]; intros [|y m] [|z r] H1; simpl in *; try done; try (by left); try (by right).
      destruct (comp x y) eqn:Exy.
      + destruct (Hc x y z Exy) as [Hn|Hn]; rewrite Hn; auto.
      + destruct (comp y x) eqn:Eyx; [done|].
        destruct (comp x z) eqn:Exz; [by left|]. destruct (comp z y) eqn:Ezy; [by right|].
        destruct (comp z x) eqn:Ezx.
        { destruct (Hc z x y Ezx) as [Hn|Hn]; congruence. }
        destruct (comp y z) eqn:Eyz.
        { destruct (Hc y z x Eyz) as [Hn|Hn]; congruence. }
        by apply IH.
  Qed.
End proofs.
