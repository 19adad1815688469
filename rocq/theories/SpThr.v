(** * Handles in several threads: the invariant *)
From Verif Require Export SpThrSpec.

Section thr.
  Context {V : Type}.
  Notation sys := (sys V).
  Notation mem := (gmap addr (cblock V)).

  Definition cnt (k : hkind) (c : addr) (hs : list (hkind * addr)) : nat := length (filter (fun h => h = (k, c)) hs).
  Lemma cnt_app k c l l' : cnt k c (l ++ l') = cnt k c l + cnt k c l'.
  Proof. unfold cnt. by rewrite filter_app, app_length. Qed.
  Lemma cnt_one k c k' c' : cnt k c [(k', c')] = if decide ((k', c') = (k, c)) then 1 else 0.
  Proof. unfold cnt. rewrite filter_cons. by destruct (decide _). Qed.
  Lemma cnt_delete k c hs i h : hs !! i = Some h -> cnt k c hs = cnt k c (delete i hs) + if decide (h = (k, c)) then 1 else 0.
  Proof.
    intros Hi. rewrite <-(take_drop_middle _ _ _ Hi) at 1. rewrite delete_take_drop, !cnt_app.
    change (h :: drop (S i) hs) with ([h] ++ drop (S i) hs). rewrite cnt_app. destruct h. rewrite cnt_one. lia.
  Qed.
  Lemma cnt_pos k c hs i : hs !! i = Some (k, c) -> cnt k c hs > 0.
  Proof. intros Hi. rewrite (cnt_delete _ _ _ _ _ Hi), decide_True by done. lia. Qed.

  Lemma owners_split (m : mem) l1 t l2 k c : owners k c (Sys m (l1 ++ t :: l2)) =
    owners k c (Sys m (l1 ++ l2)) + cnt k c (th_handles t).
  Proof.
    unfold owners, handles. simpl. fold (cnt k c). rewrite !fmap_app, fmap_cons, !concat_app. simpl.
    change (length (filter (fun h => h = (k, c)) ?l)) with (cnt k c l). rewrite !cnt_app. lia.
  Qed.
  Lemma owners_mem (m m' : mem) ts k c : owners k c (Sys m ts) = owners k c (Sys m' ts).
  Proof. done. Qed.
  Lemma owners_step (m m' : mem) ts i t t' k c : ts !! i = Some t ->
    owners k c (Sys m' (<[i := t']> ts)) + cnt k c (th_handles t) = owners k c (Sys m ts) + cnt k c (th_handles t').
  Proof.
    intros Hi. pose proof (lookup_lt_Some _ _ _ Hi) as Hl.
    rewrite (insert_take_drop _ _ _ Hl). rewrite <-(take_drop_middle _ _ _ Hi) at 3.
    rewrite !owners_split. rewrite (owners_mem m m'). lia.
  Qed.
  Lemma owners_ge (s : sys) i t k c : sy_thr s !! i = Some t -> cnt k c (th_handles t) <= owners k c s.
  Proof.
    intros Hi. destruct s as [m ts]. simpl in Hi. rewrite <-(take_drop_middle _ _ _ Hi), owners_split. lia.
  Qed.

  (** What holds of a control block in the middle of an operation on it; [o]
      and [w] are the numbers of handles. *)
  Definition alive_iff (b : cblock V) (o : nat) : Prop := cb_val b <> None <-> o > 0.
  Definition mid (q : pc) (mb : option (cblock V)) (o w : nat) : Prop := exists b, mb = Some b /\
    match q with
    | Idle => False
    | AddLoaded _ n => n = cb_use b /\ cb_use b = Z.of_nat o /\ cb_weak b = Z.of_nat w /\ o > 0 /\ cb_val b <> None
    | Locking _ => cb_use b = Z.of_nat o /\ cb_weak b = Z.of_nat w /\ o > 0 /\ cb_val b <> None
    | RelLoaded _ n => n = cb_use b /\ cb_use b = Z.of_nat (S o) /\ cb_weak b = Z.of_nat w /\ cb_val b <> None
    | RelStored _ => cb_use b = Z.of_nat o /\ cb_weak b = Z.of_nat w /\ cb_val b <> None
    | RelDestroyed _ => o = 0 /\ cb_use b = 0%Z /\ cb_weak b = Z.of_nat w /\ cb_val b = None
    | WAddLoaded _ n => n = cb_weak b /\ cb_use b = Z.of_nat o /\ cb_weak b = Z.of_nat w /\ alive_iff b o
    | WRelLoaded _ n => n = cb_weak b /\ cb_use b = Z.of_nat o /\ cb_weak b = Z.of_nat (S w) /\ alive_iff b o
    | WRelStored _ => cb_use b = Z.of_nat o /\ cb_weak b = Z.of_nat w /\ alive_iff b o
    | WRelTested _ => cb_use b = Z.of_nat o /\ cb_weak b = Z.of_nat w /\ w = 0 /\ alive_iff b o
    end.
  Definition quiet (mb : option (cblock V)) (o w : nat) : Prop :=
    match mb with
    | None => o = 0 /\ w = 0
    | Some b => cb_use b = Z.of_nat o /\ cb_weak b = Z.of_nat w /\ alive_iff b o /\ o + w > 0
    end.
  Record inv (s : sys) : Prop := {
    inv_quiet : forall c, (forall t, t ∈ sy_thr s -> busy t <> Some c) ->
      quiet (sy_mem s !! c) (owners KShared c s) (owners KWeak c s);
    inv_mid : forall t c, t ∈ sy_thr s -> busy t = Some c ->
      mid (th_pc t) (sy_mem s !! c) (owners KShared c s) (owners KWeak c s)
  }.

  Lemma inv_right s : inv s -> all_right s.
  Proof. intros H c Hc. apply (inv_quiet _ H) in Hc. unfold block_right, quiet in *. by destruct (sy_mem s !! c). Qed.
  Lemma idle_inv s : all_idle s -> all_right s -> inv s.
  Proof.
    intros Hi Hr. split.
    - intros c Hc. apply Hr in Hc. unfold block_right, quiet in *. by destruct (sy_mem s !! c).
    - intros t c Ht. unfold busy. rewrite (Hi t Ht). done.
  Qed.

  Lemma busy_pc t : busy t = None -> th_pc t = Idle.
  Proof. unfold busy. by destruct (th_pc t). Qed.
  Lemma not_race_other (s : sys) i j t u c : ~ race s -> sy_thr s !! i = Some t -> busy t = Some c ->
    sy_thr s !! j = Some u -> busy u = Some c -> j = i.
  Proof.
    intros Hr Ht Hb Hu Hc. destruct (decide (j = i)) as [|Hne]; [done|]. destruct Hr. exists i, j, t, u, c. done.
  Qed.

  (** A step that only concerns the control block [c]. *)
  Lemma inv_local (s : sys) i t t' m' c :
    inv s -> sy_thr s !! i = Some t ->
    (forall c', c' <> c -> m' !! c' = sy_mem s !! c') ->
    (forall k c', c' <> c -> cnt k c' (th_handles t') = cnt k c' (th_handles t)) ->
    (busy t = None \/ busy t = Some c) -> (busy t' = None \/ busy t' = Some c) ->
    (forall j u, j <> i -> sy_thr s !! j = Some u -> busy u <> Some c) ->
    (let o := owners KShared c (Sys m' (<[i := t']> (sy_thr s))) in
     let w := owners KWeak c (Sys m' (<[i := t']> (sy_thr s))) in
     match busy t' with None => quiet (m' !! c) o w | Some _ => mid (th_pc t') (m' !! c) o w end) ->
    inv (Sys m' (<[i := t']> (sy_thr s))).
  Proof.
    intros [Hq Hm] Hi Hm' Hcnt Hb Hb' Hother Hc. destruct s as [m ts]. simpl in *.
    assert (forall k c', c' <> c -> owners k c' (Sys m' (<[i := t']> ts)) = owners k c' (Sys m ts)) as Hown.
    { intros k c' Hne. pose proof (owners_step m m' ts i t t' k c' Hi) as H. rewrite (Hcnt k c' Hne) in H. lia. }
    pose proof (lookup_lt_Some _ _ _ Hi) as Hl.
    assert (t' ∈ <[i := t']> ts) as Hin' by (eapply elem_of_list_lookup_2; by apply list_lookup_insert).
    assert (forall u, u ∈ <[i := t']> ts -> u = t' \/ exists j, j <> i /\ ts !! j = Some u) as Hel.
    { intros u [j Hj]%elem_of_list_lookup. destruct (decide (j = i)) as [->|Hne].
      - rewrite list_lookup_insert in Hj by done. left. congruence.
      - rewrite list_lookup_insert_ne in Hj by done. right. eauto. }
    split; simpl.
    - intros c' Hc'. destruct (decide (c' = c)) as [->|Hne].
      + specialize (Hc' t' Hin'). destruct Hb' as [E|E]; rewrite E in *; [done|done].
      + rewrite (Hm' c' Hne), !Hown by done. apply Hq. intros u [j Hj]%elem_of_list_lookup.
        destruct (decide (j = i)) as [->|Hji].
        * assert (u = t) as -> by congruence. destruct Hb as [E|E]; rewrite E; congruence.
        * apply Hc'. eapply elem_of_list_lookup_2. rewrite list_lookup_insert_ne; [exact Hj|done].
    - intros u c' Hu Hbu. apply Hel in Hu as [->|(j & Hji & Hj)].
      + destruct Hb' as [E|E]; rewrite E in *; [done|]. assert (c' = c) as -> by congruence. done.
      + destruct (decide (c' = c)) as [->|Hne]; [by destruct (Hother j u)|].
        rewrite (Hm' c' Hne), !Hown by done. apply Hm; [by eapply elem_of_list_lookup_2|done].
  Qed.

  (** A step that changes neither memory nor handles. *)
  Lemma inv_skip (s : sys) i t p :
    inv s -> sy_thr s !! i = Some t -> busy t = None ->
    inv (Sys (sy_mem s) (<[i := Thr (th_handles t) Idle p]> (sy_thr s))).
  Proof.
    intros [Hq Hm] Hi Hb. destruct s as [m ts]. simpl in *.
    assert (forall k c, owners k c (Sys m (<[i := Thr (th_handles t) Idle p]> ts)) = owners k c (Sys m ts)) as Hown.
    { intros k c. pose proof (owners_step m m ts i t (Thr (th_handles t) Idle p) k c Hi) as H. simpl in H. lia. }
    split; simpl.
    - intros c Hc. rewrite !Hown. apply Hq. intros u [j Hj]%elem_of_list_lookup. destruct (decide (j = i)) as [->|Hji].
      + assert (u = t) as -> by congruence. congruence.
      + apply Hc. eapply elem_of_list_lookup_2. rewrite list_lookup_insert_ne; [exact Hj|done].
    - intros u c [j Hj]%elem_of_list_lookup Hbu. rewrite !Hown. destruct (decide (j = i)) as [->|Hji].
      + rewrite list_lookup_insert in Hj by (by eapply lookup_lt_Some). injection Hj as <-. done.
      + rewrite list_lookup_insert_ne in Hj by done. apply Hm; [by eapply elem_of_list_lookup_2|done].
  Qed.

  (** A handle keeps its control block, a shared_ptr the object. *)
  Lemma block_there (s : sys) i t j k c :
    inv s -> sy_thr s !! i = Some t -> th_handles t !! j = Some (k, c) ->
    exists b, sy_mem s !! c = Some b /\ (k = KShared -> cb_val b <> None).
  Proof.
    intros Hinv Hi Hj. pose proof (owners_ge s i t k c Hi) as Hge. pose proof (cnt_pos _ _ _ _ Hj) as Hpos.
    destruct (decide (Exists (fun u => busy u = Some c) (sy_thr s))) as [Hex|Hn].
    - apply Exists_exists in Hex as (u & Hu & Hbu). pose proof (inv_mid _ Hinv u c Hu Hbu) as (b & Hb & Hm).
      exists b. split; [done|]. intros ->. destruct (th_pc u); try done; try (by destruct Hm as (? & ? & ? & ? & ?)); try (by destruct Hm as (? & ? & ? & ?)); try (by destruct Hm as (? & ? & ?)).
      all: unfold alive_iff in *; try (destruct_and!; naive_solver lia).
    - assert (forall u, u ∈ sy_thr s -> busy u <> Some c) as Hq.
      { intros u Hu Hb. apply Hn. apply Exists_exists. eauto. }
      apply (inv_quiet _ Hinv) in Hq. unfold quiet in Hq. destruct (sy_mem s !! c) as [b|].
      + exists b. split; [done|]. intros ->. destruct Hq as (_ & _ & Ha & _). apply Ha. lia.
      + destruct Hq. destruct k; lia.
  Qed.

  (** After the start of a statement about [c]: nobody else is busy with it. *)
  Lemma start_alone (s : sys) i t t' (m' : mem) c :
    sy_thr s !! i = Some t -> busy t' = Some c -> ~ race (Sys m' (<[i := t']> (sy_thr s))) ->
    forall j u, j <> i -> sy_thr s !! j = Some u -> busy u <> Some c.
  Proof.
    intros Hi Hb Hr j u Hji Hj Hu. apply Hr. exists i, j, t', u, c. simpl. split_and!; try done.
    - apply list_lookup_insert. by eapply lookup_lt_Some.
    - by rewrite list_lookup_insert_ne.
  Qed.
  Lemma alone_quiet (s : sys) i t c :
    inv s -> sy_thr s !! i = Some t -> busy t = None -> (forall j u, j <> i -> sy_thr s !! j = Some u -> busy u <> Some c) ->
    quiet (sy_mem s !! c) (owners KShared c s) (owners KWeak c s).
  Proof.
    intros Hinv Hi Hb Ho. apply (inv_quiet _ Hinv). intros u [j Hj]%elem_of_list_lookup.
    destruct (decide (j = i)) as [->|Hji]; [|by eapply Ho]. assert (u = t) as -> by congruence. congruence.
  Qed.
  (** Starting a statement: the handles that remain, the counter that was loaded. *)
  Lemma inv_start (s : sys) i t t' c :
    inv s -> sy_thr s !! i = Some t -> busy t = None -> busy t' = Some c ->
    ~ race (Sys (sy_mem s) (<[i := t']> (sy_thr s))) ->
    (forall k c', c' <> c -> cnt k c' (th_handles t') = cnt k c' (th_handles t)) ->
    (quiet (sy_mem s !! c) (owners KShared c s) (owners KWeak c s) ->
     forall o w, o + cnt KShared c (th_handles t) = owners KShared c s + cnt KShared c (th_handles t') ->
                 w + cnt KWeak c (th_handles t) = owners KWeak c s + cnt KWeak c (th_handles t') ->
     mid (th_pc t') (sy_mem s !! c) o w) ->
    inv (Sys (sy_mem s) (<[i := t']> (sy_thr s))).
  Proof.
    intros Hinv Hi Hb Hb' Hr Hcnt Hmid. pose proof (start_alone _ _ _ _ _ _ Hi Hb' Hr) as Ho.
    eapply (inv_local s i t t' (sy_mem s) c); try done; [by left|by right|].
    cbv zeta. rewrite Hb'. apply Hmid; [by eapply alone_quiet|..]; destruct s as [m ts]; by apply owners_step.
  Qed.
  (** Continuing: nobody else is busy with the control block, by the invariant. *)
  Lemma inv_go (s : sys) i t t' m' c :
    inv s -> ~ race s -> sy_thr s !! i = Some t -> busy t = Some c ->
    (forall c', c' <> c -> m' !! c' = sy_mem s !! c') ->
    (forall k c', c' <> c -> cnt k c' (th_handles t') = cnt k c' (th_handles t)) ->
    (busy t' = None \/ busy t' = Some c) ->
    (mid (th_pc t) (sy_mem s !! c) (owners KShared c s) (owners KWeak c s) ->
     forall o w, o + cnt KShared c (th_handles t) = owners KShared c s + cnt KShared c (th_handles t') ->
                 w + cnt KWeak c (th_handles t) = owners KWeak c s + cnt KWeak c (th_handles t') ->
     match busy t' with None => quiet (m' !! c) o w | Some _ => mid (th_pc t') (m' !! c) o w end) ->
    inv (Sys m' (<[i := t']> (sy_thr s))).
  Proof.
    intros Hinv Hr Hi Hb Hm Hcnt Hb' Hmid.
    eapply (inv_local s i t t' m' c); try done; [by right| |].
    - intros j u Hji Hj Hu. apply Hji. by eapply not_race_other.
    - cbv zeta. apply Hmid; [apply (inv_mid _ Hinv); [by eapply elem_of_list_lookup_2|done]|..]; destruct s as [m ts]; by apply owners_step.
  Qed.

  Lemma mid_there (s : sys) i t c : inv s -> sy_thr s !! i = Some t -> busy t = Some c ->
    exists b, sy_mem s !! c = Some b /\ mid (th_pc t) (Some b) (owners KShared c s) (owners KWeak c s).
  Proof.
    intros Hinv Hi Hb. pose proof (inv_mid _ Hinv t c) as Hm. destruct Hm as (b & E & Hm); [by eapply elem_of_list_lookup_2|done|].
    exists b. split; [done|]. exists b. done.
  Qed.

  Lemma cnt_delete_other k c hs i k' c' : hs !! i = Some (k', c') -> c <> c' -> cnt k c (delete i hs) = cnt k c hs.
  Proof. intros Hi Hne. rewrite (cnt_delete k c _ _ _ Hi), decide_False by congruence. lia. Qed.
  Lemma cnt_snoc_other k c hs k' c' : c <> c' -> cnt k c (hs ++ [(k', c')]) = cnt k c hs.
  Proof. intros Hne. rewrite cnt_app, cnt_one, decide_False by congruence. lia. Qed.
  Lemma cnt_snoc k c hs : cnt k c (hs ++ [(k, c)]) = S (cnt k c hs).
  Proof. rewrite cnt_app, cnt_one, decide_True by done. lia. Qed.
  Lemma cnt_snoc_kind k k' c hs : k <> k' -> cnt k c (hs ++ [(k', c)]) = cnt k c hs.
  Proof. intros Hne. rewrite cnt_app, cnt_one, decide_False by congruence. lia. Qed.
  Lemma cnt_del k c hs i : hs !! i = Some (k, c) -> cnt k c hs = S (cnt k c (delete i hs)).
  Proof. intros Hi. rewrite (cnt_delete k c _ _ _ Hi), decide_True by done. lia. Qed.
  Lemma cnt_del_kind k k' c hs i : hs !! i = Some (k', c) -> k <> k' -> cnt k c (delete i hs) = cnt k c hs.
  Proof. intros Hi Hne. rewrite (cnt_delete k c _ _ _ Hi), decide_False by congruence. lia. Qed.

  Lemma sstep_ok (s : sys) i :
    inv s -> ~ race s -> (forall s', sstep i s = inl s' -> ~ race s') -> exists s', sstep i s = inl s' /\ inv s'.
  Proof.
    intros Hinv Hr Hr'. unfold sstep in *. destruct (sy_thr s !! i) as [t|] eqn:Hi; [|eauto].
    destruct t as [hs q p]. destruct q as [|c n|c n|c|c|c n|c n|c|c|c]; simpl in *.
    - (* a statement starts *)
      destruct p as [|st p]; [destruct s; simpl in *; eexists; split; [done|]; by rewrite list_insert_id|].
      assert (inv (Sys (sy_mem s) (<[i := Thr hs Idle p]> (sy_thr s)))) as Hskip by exact (inv_skip s i _ p Hinv Hi eq_refl).
      destruct st as [j|j|j|j|j]; simpl in *.
      all: destruct (hs !! j) as [[k c]|] eqn:Hj; [|by eauto].
      all: destruct (block_there s i _ j k c Hinv Hi Hj) as (b & Hb & Hval).
      + destruct k; unfold with_block in *; rewrite Hb in *; eexists; (split; [done|]); eapply inv_start; try done; try (by apply Hr').
        all: rewrite Hb; intros (Hu & Hw & Ha & Hp) o w Ho Hw'; exists b; split; [done|]; simpl in *.
        all: assert (o = owners KShared c s) as -> by lia; assert (w = owners KWeak c s) as -> by lia.
        * split_and!; try done; [apply Ha|]; by apply Hval.
        * by split_and!.
      + destruct k; [|by eauto]; unfold with_block in *; rewrite Hb in *; eexists; (split; [done|]); eapply inv_start; try done; try (by apply Hr').
        rewrite Hb; intros (Hu & Hw & Ha & Hp) o w Ho Hw'; exists b; split; [done|]; simpl in *.
        assert (o = owners KShared c s) as -> by lia; assert (w = owners KWeak c s) as -> by lia. by split_and!.
      + destruct k; [by eauto|]; unfold with_block in *; rewrite Hb in *. destruct (decide _) as [|Hn0]; [by eauto|].
        eexists; (split; [done|]); eapply inv_start; try done; try (by apply Hr').
        rewrite Hb; intros (Hu & Hw & Ha & Hp) o w Ho Hw'; exists b; split; [done|]; simpl in *.
        assert (o = owners KShared c s) as -> by lia; assert (w = owners KWeak c s) as -> by lia.
        split_and!; try done; [lia|]. apply Ha. lia.
      + destruct k; unfold with_block in *; rewrite Hb in *; eexists; (split; [done|]); eapply inv_start; try done; try (by apply Hr').
        1, 3: by intros; eapply cnt_delete_other.
        all: rewrite Hb; intros (Hu & Hw & Ha & Hp) o w Ho Hw'; exists b; split; [done|]; simpl in *.
        * rewrite (cnt_del KShared _ _ _ Hj) in Ho. rewrite (cnt_del_kind KWeak KShared c hs j) in Hw' by done.
          split_and!; try done; [lia..|by apply Hval].
        * rewrite (cnt_del KWeak _ _ _ Hj) in Hw'. rewrite (cnt_del_kind KShared KWeak c hs j) in Ho by done.
          assert (o = owners KShared c s) as -> by lia. split_and!; try done; lia.
      + destruct k; [|by eauto]; unfold with_block in *; rewrite Hb in *. destruct (cb_val b) eqn:Hv; [by eauto|]. by destruct Hval.
    - (* add_ref *)
      destruct (mid_there s i _ c Hinv Hi eq_refl) as (b & Hb & _). unfold with_block in *. rewrite Hb in *.
      eexists; (split; [done|]). eapply (inv_go s i _ _ _ c); try done; [by intros; apply lookup_insert_ne|by intros; simpl; apply cnt_snoc_other|by left|].
      rewrite Hb. intros (b' & [= <-] & -> & Hu & Hw & Hp & Hv) o w Ho Hw'. simpl in *.
      rewrite cnt_snoc in Ho. rewrite cnt_snoc_kind in Hw' by done. rewrite lookup_insert. simpl. unfold alive_iff. simpl.
      split_and!; [lia|lia|split; [intros _; lia|done]|lia].
    - (* release: store *)
      destruct (mid_there s i _ c Hinv Hi eq_refl) as (b & Hb & _). unfold with_block in *. rewrite Hb in *.
      eexists; (split; [done|]). eapply (inv_go s i _ _ _ c); try done; [by intros; apply lookup_insert_ne|by right|].
      rewrite Hb. intros (b' & [= <-] & -> & Hu & Hw & Hv) o w Ho Hw'. simpl in *.
      rewrite lookup_insert. eexists; split; [done|]. simpl. split_and!; [lia|lia|done].
    - (* release: test *)
      destruct (mid_there s i _ c Hinv Hi eq_refl) as (b & Hb & Hmid). unfold with_block in *. rewrite Hb in *.
      destruct Hmid as (b' & [= <-] & Hu & Hw & Hv). destruct (decide _) as [H0|H0].
      + destruct (cb_val b) as [x|] eqn:Ev; [|done]. eexists; (split; [done|]).
        eapply (inv_go s i _ _ _ c); try done; [by intros; apply lookup_insert_ne|by right|].
        intros _ o w Ho Hw'. simpl in *. rewrite lookup_insert. eexists; split; [done|]. simpl. split_and!; [lia|lia|lia|done].
      + eexists; (split; [done|]). eapply (inv_go s i _ _ _ c); try done; [by left|].
        intros _ o w Ho Hw'. simpl in *. rewrite Hb. simpl. unfold alive_iff. split_and!; [lia|lia|split; [intros _; lia|done]|lia].
    - (* release: end *)
      destruct (mid_there s i _ c Hinv Hi eq_refl) as (b & Hb & Hmid). unfold with_block, free_block in *. rewrite Hb in *.
      destruct Hmid as (b' & [= <-] & H00 & Hu & Hw & Hv). rewrite Hv in *. destruct (decide _) as [H0|H0].
      + eexists; (split; [done|]). eapply (inv_go s i _ _ _ c); try done; [by intros; apply lookup_delete_ne|by left|].
        intros _ o w Ho Hw'. simpl in *. rewrite lookup_delete. simpl. lia.
      + eexists; (split; [done|]). eapply (inv_go s i _ _ _ c); try done; [by left|].
        intros _ o w Ho Hw'. simpl in *. rewrite Hb. simpl. unfold alive_iff. rewrite Hv. split_and!; [lia|lia|split; [done|lia]|lia].
    - (* weak_add_ref *)
      destruct (mid_there s i _ c Hinv Hi eq_refl) as (b & Hb & _). unfold with_block in *. rewrite Hb in *.
      eexists; (split; [done|]). eapply (inv_go s i _ _ _ c); try done; [by intros; apply lookup_insert_ne|by intros; simpl; apply cnt_snoc_other|by left|].
      rewrite Hb. intros (b' & [= <-] & -> & Hu & Hw & Ha) o w Ho Hw'. simpl in *.
      rewrite cnt_snoc in Hw'. rewrite cnt_snoc_kind in Ho by done. rewrite lookup_insert. simpl. unfold alive_iff in *. simpl.
      assert (o = owners KShared c s) as -> by lia. split_and!; [lia|lia|done|lia].
    - (* weak_release: store *)
      destruct (mid_there s i _ c Hinv Hi eq_refl) as (b & Hb & _). unfold with_block in *. rewrite Hb in *.
      eexists; (split; [done|]). eapply (inv_go s i _ _ _ c); try done; [by intros; apply lookup_insert_ne|by right|].
      rewrite Hb. intros (b' & [= <-] & -> & Hu & Hw & Ha) o w Ho Hw'. simpl in *.
      rewrite lookup_insert. eexists; split; [done|]. unfold alive_iff in *. simpl.
      assert (o = owners KShared c s) as -> by lia. split_and!; [lia|lia|done].
    - (* weak_release: first test *)
      destruct (mid_there s i _ c Hinv Hi eq_refl) as (b & Hb & Hmid). unfold with_block in *. rewrite Hb in *.
      destruct Hmid as (b' & [= <-] & Hu & Hw & Ha). destruct (decide _) as [H0|H0]; eexists; (split; [done|]).
      + eapply (inv_go s i _ _ _ c); try done; [by right|].
        intros _ o w Ho Hw'. simpl in *. exists b. split; [done|]. assert (o = owners KShared c s) as -> by lia. split_and!; [lia|lia|lia|done].
      + eapply (inv_go s i _ _ _ c); try done; [by left|].
        intros _ o w Ho Hw'. simpl in *. rewrite Hb. simpl. assert (o = owners KShared c s) as -> by lia. split_and!; [lia|lia|done|lia].
    - (* weak_release: second test *)
      destruct (mid_there s i _ c Hinv Hi eq_refl) as (b & Hb & Hmid). unfold with_block, free_block in *. rewrite Hb in *.
      destruct Hmid as (b' & [= <-] & Hu & Hw & Hw0 & Ha). destruct (decide _) as [H0|H0].
      + assert (cb_val b = None) as Hv.
        { destruct (cb_val b) eqn:Ev; [|done]. destruct Ha as [Ha _]. rewrite Ev in Ha. specialize (Ha ltac:(done)). lia. }
        rewrite Hv in *. eexists; (split; [done|]).
        eapply (inv_go s i _ _ _ c); try done; [by intros; apply lookup_delete_ne|by left|].
        intros _ o w Ho Hw'. simpl in *. rewrite lookup_delete. simpl. lia.
      + eexists; (split; [done|]). eapply (inv_go s i _ _ _ c); try done; [by left|].
        intros _ o w Ho Hw'. simpl in *. rewrite Hb. simpl. assert (o = owners KShared c s) as -> by lia. split_and!; [lia|lia|done|lia].
    - (* lock *)
      destruct (mid_there s i _ c Hinv Hi eq_refl) as (b & Hb & Hmid). unfold with_block in *. rewrite Hb in *.
      destruct Hmid as (b' & [= <-] & Hu & Hw & Hp & Hv). eexists; (split; [done|]).
      eapply (inv_go s i _ _ _ c); try done; [by right|].
      intros _ o w Ho Hw'. simpl in *. exists b. split; [done|].
      assert (o = owners KShared c s) as -> by lia; assert (w = owners KWeak c s) as -> by lia. by split_and!.
  Qed.

  Lemma run_ok sched : forall s : sys, inv s -> race_free sched s -> exists s', run sched s = inl s' /\ inv s'.
  Proof.
    induction sched as [|i sched IH]; intros s Hinv [Hr Hf]; simpl; [eauto|].
    destruct (sstep_ok s i Hinv Hr) as (s' & E & Hinv').
    - intros s' E. rewrite E in Hf. by destruct sched, Hf.
    - rewrite E in *. by apply IH.
  Qed.
End thr.
