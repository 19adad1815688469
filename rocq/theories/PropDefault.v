(** * Elements constructed without arguments *)
From Verif Require Import VecDefault VecExact PropVector.

Section default.
  Context {V : Type} (cf : cfg V).
  Notation W := (world (vblock V)).
  Implicit Types w : W.

  Lemma default_owns v l cap hv : vec_owns (default_cfg cf) v l cap hv <-> vec_owns cf v l cap hv.
  Proof. done. Qed.

  (** construction of one default element: at most one event is used *)
  Lemma runs_construct_default w b o blk (Q : _ -> W -> Prop) :
    w_err w = None -> w_heap w !! b = Some blk -> o < b_room blk -> b_live blk !! o = None ->
    (c_kind cf = Nothrow \/ (forall code, head (w_orc w) <> Some (EvFail code)) ->
       Q tt (World (<[b:=Block (b_alloc blk) (b_req blk) (b_room blk) (<[o:=c_default cf]> (b_live blk))]> (w_heap w))
               (if decide (c_kind cf = Nothrow) then w_orc w else tail (w_orc w)) None (w_allocs w) (S (w_ctors w)))) ->
    (forall code, c_kind cf <> Nothrow -> head (w_orc w) = Some (EvFail code) ->
       Q tt (World (w_heap w) (tail (w_orc w)) (Some (EElem code)) (w_allocs w) (S (w_ctors w)))) ->
    runs (construct_default cf (Ptr b o)) w Q.
  Proof.
    intros He Hb Ho Hl Hok Hfail. unfold construct_default, construct_at, construct. cbn [default_cfg c_kind read_arg].
    assert (forall w1, w_heap w1 = w_heap w -> w_err w1 = None -> forall (P : _ -> W -> Prop),
      P tt (World (<[b:=Block (b_alloc blk) (b_req blk) (b_room blk) (<[o:=c_default cf]> (b_live blk))]> (w_heap w)) (w_orc w1) None (w_allocs w1) (w_ctors w1)) ->
      runs (place (Ptr b o) (c_default cf)) w1 P) as Hpl.
    { intros w1 Hw1 He1 P HP. eapply runs_place; [by rewrite Hw1|done|done|]. destruct w1; simpl in *; by subst. }
    destruct (c_kind cf) eqn:Hk.
    - rewrite decide_True in Hok by done. rbind. apply runs_tick_ctor. rbind. apply runs_ret. apply Hpl; [done|done|]. apply Hok. by left.
    - rewrite decide_False in Hok by done. rbind. apply runs_tick_ctor. rbind. apply runs_ret.
      destruct w as [h [|[code|p] orc] e na nc]; simpl in *; subst e; (rbind; eapply runs_eq; [reflexivity|]).
      + apply Hpl; [done|done|]. apply Hok. right. done.
      + apply runs_put_err. by apply Hfail.
      + apply Hpl; [done|done|]. apply Hok. right. done.
    - rewrite decide_False in Hok by done. rbind. apply runs_tick_ctor. rbind. apply runs_ret.
      destruct w as [h [|[code|p] orc] e na nc]; simpl in *; subst e; (rbind; eapply runs_eq; [reflexivity|]).
      + apply Hpl; [done|done|]. apply Hok. right. done.
      + apply runs_put_err. by apply Hfail.
      + apply Hpl; [done|done|]. apply Hok. right. done.
  Qed.

  Lemma runs_default_room v b l cap hf w (Q : _ -> W -> Prop) :
    m_start v = Ptr b 0 -> m_finish v = Ptr b (length l) -> m_end_of_storage v = Ptr b cap ->
    length l < cap -> cap_ok cf cap ->
    heap_is w {[b := Block (m_allocator v) cap cap (map_seq 0 l)]} hf -> w_err w = None ->
    (forall v' w', (exists cap' hv',
       vec_owns cf v' (match w_err w' with None => l ++ [c_default cf] | Some _ => l end) cap' hv' /\ heap_is w' hv' hf) -> Q v' w') ->
    runs (let! cap := vec_capacity v in
          let! n := vec_size v in
          do! assert_ cf (bool_decide (n < cap)) in
          let last := m_finish v in
          let! first := padd (m_start v) (length l) in
          let! ok := shift_loop cf (S (poff last)) last first in
          if negb ok then ret v else
          do! construct_default cf first in
          let! e := has_err in
          if (e : bool) then ret v else
          let! fin := padd (m_finish v) 1 in
          ret (Vec (m_allocator v) (m_start v) fin (m_end_of_storage v))) w Q.
  Proof.
    intros Hs Hf Hen Hlt Hc [Hw Hd] He HQ.
    rewrite map_disjoint_singleton_l in Hd. pose proof Hw as Hw0. rewrite <-insert_union_singleton_l in Hw.
    rbind. unfold vec_capacity. rewrite Hen, Hs. apply runs_pdiff; [lia|]. rewrite Nat.sub_0_r.
    rbind. unfold vec_size. rewrite Hf, Hs. apply runs_pdiff; [lia|]. rewrite Nat.sub_0_r.
    rbind. apply runs_assert; [by apply bool_decide_eq_true|]. cbv zeta.
    rbind. eapply runs_padd; [by rewrite Hw, lookup_insert|simpl; lia|]. rewrite Nat.add_0_l.
    cbn [shift_loop]. rewrite decide_True by done. rbind. apply runs_ret. cbn [negb].
    rbind. eapply runs_construct_default; [done|by rewrite Hw, lookup_insert|simpl; lia| | |].
    - simpl. rewrite lookup_map_seq_0. apply lookup_ge_None. lia.
    - intros _. rbind. apply runs_has_err. simpl. rewrite Hw, insert_insert, map_seq_snoc_0.
      rbind. eapply runs_padd; [simpl; by rewrite lookup_insert|simpl; lia|]. apply runs_ret. apply HQ. simpl.
      eexists cap, _. split.
      + right. exists b. simpl. rewrite app_length. simpl. split_and!; try done. lia.
      + split; simpl; [by rewrite insert_union_singleton_l|by rewrite map_disjoint_singleton_l].
    - intros code Hk _. rbind. apply runs_has_err. simpl. apply runs_ret. apply HQ. simpl.
      eexists cap, _. split; [right; exists b; split_and!; try done; lia|]. split; simpl; [done|by rewrite map_disjoint_singleton_l].
  Qed.

  Lemma resize_default_shrink v l cap hv n w :
    vec_owns cf v l cap hv -> n <= length l -> vec_resize_default cf v n w = vec_resize cf v n (AVal (c_default cf)) w.
  Proof.
    intros Ho Hn. unfold vec_resize_default, vec_resize.
    assert (Hs : vec_size v w = Done (length l) w).
    { destruct (owns_size cf v l cap hv w (fun a w' => a = length l /\ w' = w) Ho ltac:(done)) as (a0 & w' & E & -> & ->). done. }
    unfold bind at 1. rewrite Hs. rewrite decide_True by done. unfold bind at 3. rewrite Hs. by rewrite decide_True by done.
  Qed.

  (** the growth of a vector without storage uses at most one event *)
  Lemma runs_grow_new al n w (Q : _ -> W -> Prop) :
    cfg_ok cf -> (N.of_nat n * c_sizeof cf < 2^64)%N -> 0 < n -> w_err w = None ->
    (forall b cap, n <= cap -> w_heap w !! b = None ->
       Q (Vec al (Ptr b 0) (Ptr b 0) (Ptr b cap))
         (World (<[b:=Block al cap cap ∅]> (w_heap w)) (tail (w_orc w)) None (S (w_allocs w)) (w_ctors w))) ->
    (forall o, o = w_orc w \/ o = tail (w_orc w) ->
       Q (vec_new al) (World (w_heap w) o (Some EBadAlloc) (S (w_allocs w)) (w_ctors w))) ->
    runs (grow cf (vec_new al) n) w Q.
  Proof.
    intros Hcf Hb Hn He Hok Hfail. unfold grow, vec_new.
    rbind. unfold vec_capacity. simpl. apply runs_pdiff_null. fold (grow_cap 0 n).
    pose proof (grow_cap_ge 0 n) as Hge.
    assert (Hby : (N.of_nat (grow_cap 0 n) * c_sizeof cf < 2^64)%N).
    { apply grow_cap_bytes; [done|unfold cap_ok; lia|done]. }
    rbind. apply runs_assert; [apply bool_decide_eq_true; lia|].
    unfold vec_reserve. rbind. unfold vec_capacity. simpl. apply runs_pdiff_null.
    rewrite decide_False by lia. pose proof (bytes_fits _ _ Hcf Hby) as Hfit.
    rewrite decide_False by (unfold fits, size_max in *; lia).
    unfold do_reserve. simpl.
    unfold allocate, wrap64. rewrite N.mod_small by done. destruct Hcf as [[Hs1 Hs2] _].
    case_decide as Hmax.
    - rbind. eapply runs_eq; [reflexivity|]. rbind. apply runs_has_err. simpl. apply runs_ret. apply Hfail. by left.
    - rewrite N.div_mul by lia. rewrite Nat2N.id. rbind. rbind.
      assert (Hdone : forall b, w_heap w !! b = None ->
        runs (let! e := has_err in
              if (e : bool) then ret (Vec al Null Null Null) else
              let! _ := uninitialised_copy cf Null Null (Ptr b 0) in
              let! e0 := has_err in
              if (e0 : bool) then
                do! deallocate al (Ptr b 0) (grow_cap 0 n) in ret (Vec al Null Null Null)
              else
              let! current_size := vec_size (Vec al Null Null Null) in
              do! destroy Null Null in
              let! old_cap := pdiff Null Null in
              do! deallocate al Null old_cap in
              let! fin := padd (Ptr b 0) current_size in
              let! eos := padd (Ptr b 0) (grow_cap 0 n) in
              do! deallocate al Null (grow_cap 0 n) in
              ret (Vec al (Ptr b 0) fin eos))
          (World (<[b:=Block al (grow_cap 0 n) (grow_cap 0 n) ∅]> (w_heap w)) (tail (w_orc w)) None (S (w_allocs w)) (w_ctors w)) Q).
      { intros b Hb'. rbind. apply runs_has_err. simpl. rbind. unfold uninitialised_copy; simpl. apply runs_ret.
        rbind. apply runs_has_err; simpl.
        rbind. unfold vec_size; simpl. apply runs_pdiff_null.
        rbind. apply runs_destroy_null.
        rbind. apply runs_pdiff_null.
        rbind. apply runs_deallocate_null.
        rbind. eapply runs_padd; [simpl; by rewrite lookup_insert|simpl; lia|].
        rbind. eapply runs_padd; [simpl; by rewrite lookup_insert|simpl; lia|].
        rbind. apply runs_deallocate_null. apply runs_ret. simpl. by apply Hok. }
      destruct w as [h [|[code|hint] o] e na nc]; simpl in *; subst e; (eapply runs_eq; [cbn; reflexivity|]); apply runs_ret.
      + apply Hdone. apply pick_fresh.
      + rbind. apply runs_has_err. simpl. apply runs_ret. apply Hfail. by right.
      + apply Hdone. apply pick_fresh.
  Qed.

  (** the loop uses one event for each element, and one for the failure *)
  Lemma runs_resize_loop_default_orc fuel al b cap k n w blk (Q : _ -> W -> Prop) :
    c_kind cf <> Nothrow -> n - k < fuel -> k <= n -> n <= cap ->
    w_heap w !! b = Some blk -> b_room blk = cap -> (forall i, k <= i -> b_live blk !! i = None) -> w_err w = None ->
    (forall w', w_err w' = None -> w_orc w' = drop (n - k) (w_orc w) ->
       Q (Vec al (Ptr b 0) (Ptr b n) (Ptr b cap)) w') ->
    (forall w' j code, j < n - k -> w_err w' = Some (EElem code) -> w_orc w !! j = Some (EvFail code) ->
       w_orc w' = drop (S j) (w_orc w) ->
       Q (Vec al (Ptr b 0) (Ptr b (k + j)) (Ptr b cap)) w') ->
    runs (resize_loop_default cf fuel (Vec al (Ptr b 0) (Ptr b k) (Ptr b cap)) n) w Q.
  Proof.
    intros Hk. unfold resize_loop_default. revert k w blk. induction fuel as [|fuel IH]; intros k w blk Hf Hkn Hnc Hb Hr Hl He Hok Hfail; [lia|].
    cbn [resize_loop m_start m_finish]. rbind. eapply runs_padd; [done|simpl; lia|]. cbn [pltb Nat.add]. destruct (decide (k < n)) as [Hlt|Hge]; [rewrite bool_decide_eq_true_2 by done|rewrite bool_decide_eq_false_2 by lia].
    - rbind. eapply (runs_construct_default w b k blk); [done|done|lia|by apply Hl| |].
      + intros _. rbind. apply runs_has_err. simpl. rewrite decide_False by done.
        rbind. eapply runs_padd; [simpl; by rewrite lookup_insert|simpl; lia|]. rewrite Nat.add_1_r. simpl.
        eapply (IH (S k)); [lia|lia|done|simpl; by rewrite lookup_insert|done| |done| |].
        * intros i Hi. simpl. rewrite lookup_insert_ne by lia. apply Hl. lia.
        * simpl. intros w' He' Ho'. apply Hok; [done|]. rewrite Ho'. replace (n - k) with (S (n - S k)) by lia. destruct (w_orc w); simpl; [by rewrite ?drop_nil|done].
        * simpl. intros w' j code Hj He' Hj' Ho'. replace (S (k + j)) with (k + S j) by lia. eapply Hfail; [|done| |].
          { lia. }
          { destruct (w_orc w); [|done]. done. }
          { rewrite Ho'. by destruct (w_orc w). }
      + intros code _ Hc. rbind. apply runs_has_err. simpl. apply runs_ret.
        rewrite <-(Nat.add_0_r k). eapply (Hfail _ 0 code); [lia|done| |].
        * by destruct (w_orc w).
        * simpl. by destruct (w_orc w).
    - apply runs_ret. assert (k = n) as -> by lia. apply Hok; [done|]. by rewrite Nat.sub_diag.
  Qed.
End default.

(** ** C51 *)

(** Without arguments there is one failure point, whatever the element type:
    the next event decides, no other event is used, and no initialiser runs. *)
Theorem C51_default V (cf : cfg V) w b o blk hf :
  w_err w = None -> heap_is w {[b := blk]} hf -> o < b_room blk -> b_live blk !! o = None ->
  runs (construct_default cf (Ptr b o)) w (fun _ w' =>
    w_orc w' = (if decide (c_kind cf = Nothrow) then w_orc w else tail (w_orc w)) /\
    match w_err w' with
    | None => w_heap w' = <[b := Block (b_alloc blk) (b_req blk) (b_room blk) (<[o := c_default cf]> (b_live blk))]> (w_heap w)
    | Some e => w_heap w' = w_heap w /\ c_kind cf <> Nothrow /\ exists code, e = EElem code /\ head (w_orc w) = Some (EvFail code)
    end).
Proof.
  intros He [Hw Hd] Ho Hl. eapply (runs_construct_default cf w b o blk); [done| |done|done|done|].
  - by rewrite Hw, <-insert_union_singleton_l, lookup_insert.
  - intros code Hk Hc. simpl. rewrite decide_False by done. split_and!; [done..|]. by exists code.
Qed.
Print Assumptions C51_default.

(** resize(n) of a vector without storage: one event for the storage and one
    for each element, and the event that fails is the one of the first element
    that is missing.  No event is spent on an initialiser. *)
Theorem C51_resize_default V (cf : cfg V) al n w :
  cfg_ok cf -> bytes_fit cf n -> 0 < n -> c_kind cf <> Nothrow -> w_err w = None ->
  runs (vec_resize_default cf (vec_new al) n) w (fun v' w' => exists k,
    vec_size v' w' = Done k w' /\
    match w_err w' with
    | None => k = n /\ w_orc w' = drop (1 + n) (w_orc w)
    | Some e => k < n /\
        ((e = EBadAlloc /\ k = 0 /\ (w_orc w' = w_orc w \/ w_orc w' = tail (w_orc w))) \/
         exists code, e = EElem code /\ w_orc w !! (1 + k) = Some (EvFail code) /\ w_orc w' = drop (2 + k) (w_orc w))
    end).
Proof.
  intros Hcf Hb Hn Hk He. unfold vec_resize_default. rbind. unfold vec_size at 1. simpl. apply runs_pdiff_null.
  rewrite decide_False by lia. rbind. apply runs_grow_new; [done..| |].
  - intros b cap Hcap Hfresh. rbind. apply runs_has_err. simpl.
    eapply (runs_resize_loop_default_orc cf (S n) al b cap 0 n); [done|lia..|simpl; by rewrite lookup_insert|done|done|done| |]; simpl.
    + intros w' He' Ho'. exists n. split; [unfold vec_size, pdiff; cbn [m_finish m_start]; rewrite decide_True by (split; [done|lia]); unfold ret; f_equal; lia|].
      rewrite He'. split; [done|]. rewrite Ho', Nat.sub_0_r. destruct (w_orc w); simpl; [by rewrite ?drop_nil|done].
    + intros w' j code Hj He' Hj' Ho'. exists j. split; [unfold vec_size, pdiff; cbn [m_finish m_start]; rewrite decide_True by (split; [done|lia]); unfold ret; f_equal; lia|].
      rewrite He'. split; [lia|]. right. exists code. split; [done|]. rewrite Ho'. destruct (w_orc w); [done|]. done.
  - intros o Ho. rbind. apply runs_has_err. simpl. apply runs_ret. exists 0. split; [done|]. simpl. split; [done|]. by left.
Qed.
Print Assumptions C51_resize_default.

(** ** C08 *)

(** resize(n) *)
Theorem C08_resize_default V (cf : cfg V) v l cap hv hf n w :
  cfg_ok cf -> growth_ok cf -> vec_owns cf v l cap hv -> heap_is w hv hf -> w_err w = None -> bytes_fit cf n ->
  runs (vec_resize_default cf v n) w (fun v' w' => exists l' cap' hv',
    vec_owns cf v' l' cap' hv' /\ heap_is w' hv' hf /\
    (if decide (n <= length l)
     then w_err w' = None /\ l' = take n l /\ cap' = cap
     else match w_err w' with
          | None => l' = l ++ replicate (n - length l) (c_default cf)
          | Some _ => exists k, k < n - length l /\ l' = l ++ replicate k (c_default cf)
          end)).
Proof.
  intros Hcf Hg Ho Hh He Hn. case_decide as Hle.
  - unfold runs. rewrite (resize_default_shrink cf v l cap hv n w Ho Hle).
    eapply runs_mono; [eapply (C08_resize V cf v l cap hv hf n _ (c_default cf)); try done|].
    cbv beta. intros v' w' (l' & cap' & hv' & H). rewrite decide_True in H by done. eauto.
  - unfold vec_resize_default. rbind. eapply owns_size; [done|]. rewrite decide_False by lia.
    rbind. eapply runs_grow; try done; [right; by eapply growth_fits| |].
    + intros v' b hv' w' Hs' Hal' Hfresh Ho' Hh' He' Hna. rbind. apply runs_has_err. rewrite He'.
      destruct Ho' as [(Hs & _)|(b' & Hs & Hf & Hen & Hle' & Hc' & ->)]; [congruence|].
      rewrite Hs' in Hs. injection Hs as <-.
      eapply (runs_resize_loop (default_cfg cf) _ _ b l); try done; [lia|apply grow_cap_ge|lia|].
      intros v'' hv'' w'' k Hal'' Hst Hk Ho'' Hh'' Hna'' Hcase. eexists _, _, hv''. split; [exact Ho''|]. split; [done|].
      destruct Hcase as [[-> ->]|(code & -> & ?)]; eauto.
    + intros w' e Hhe He' Hna. rbind. apply runs_has_err. rewrite He'. apply runs_ret.
      exists l, cap, hv. split; [done|]. split; [unfold heap_is in *; by rewrite Hhe|]. rewrite He'. exists 0. split; [lia|]. by rewrite app_nil_r.
Qed.
Print Assumptions C08_resize_default.

(** ** C02 *)

(** emplace_back() *)
Theorem C02_emplace_back_default V (cf : cfg V) v l cap hv hf w :
  cfg_ok cf -> vec_owns cf v l cap hv -> heap_is w hv hf -> w_err w = None ->
  runs (vec_emplace_back_default cf v) w (fun v' w' => exists cap' hv',
    vec_owns cf v' (match w_err w' with None => l ++ [c_default cf] | Some _ => l end) cap' hv' /\
    heap_is w' hv' hf).
Proof.
  intros Hcf Ho Hh He. unfold vec_emplace_back_default. cbv zeta.
  pose proof (owns_cap_ok _ _ _ _ _ Hcf Ho) as Hco. pose proof (owns_le _ _ _ _ _ Ho) as Hle.
  destruct (insert_checks cf v l _ hv (length l) Ho ltac:(lia)) as (Hp1 & Hp2 & Hp3).
  rewrite <-(owns_pos_end _ _ _ _ _ Ho) in Hp1, Hp2, Hp3.
  rbind. apply runs_assert; [done|]. rbind. apply runs_assert; [done|].
  rbind. rewrite Hp3. apply runs_ret. rbind. eapply owns_capacity; [done|]. rbind. eapply owns_size; [done|].
  rbind. case_decide as Hfull.
  - assert (Hsz : sz (cap + 1) = S cap).
    { rewrite sz_fits; [lia|]. eapply bytes_fits; [done|]. replace (cap + 1) with (S cap) by lia. by apply cap_S_bytes. }
    rewrite Hsz. rbind. eapply runs_grow; try done; [by apply cap_S_bytes|left; lia| |].
    + intros v' b hv' w' Hs' Hal' Hfresh Ho' Hh' He' Hna. rbind. apply runs_has_err. rewrite He'. apply runs_ret.
      destruct Ho' as [(Hs & _)|(b' & Hs & Hf & Hen & Hle' & Hc' & ->)]; [congruence|].
      rewrite Hs' in Hs. injection Hs as <-. pose proof (grow_cap_ge cap (S cap)) as Hge.
      eapply runs_default_room; try done. lia.
    + intros w' e Hhe He' Hna. rbind. apply runs_has_err. rewrite He'. apply runs_ret. simpl. apply runs_ret. rewrite He'.
      exists cap, hv. split; [done|]. unfold heap_is in *; by rewrite Hhe.
  - apply runs_ret. destruct Ho as [(Hs & Hf & Hen & -> & -> & ->)|(b & Hs & Hf & Hen & _ & _ & ->)]; [done|].
    eapply runs_default_room; try done. lia.
Qed.
Print Assumptions C02_emplace_back_default.

(** resize(4) of a two-phase vector runs four constructors and no initialiser:
    the fourth event, not the second, is the one that fails.  emplace_back()
    on a full vector. *)
Definition xD2 : cfg nat := Cfg true 8 (2^62) 0 TwoPhase 9.
Example C51_default_example :
  runs (vec_resize_default xD2 (vec_new 0) 4) (w_start [EvOk 1; EvOk 1; EvOk 1; EvOk 1; EvFail 5]) (fun v' w' =>
    w_err w' = Some (EElem 5) /\ w_heap w' = {[ 1%positive := Block 0 4 4 (map_seq 0 [9; 9; 9]) ]} /\ m_finish v' = Ptr 1 3) /\
  runs (vec_emplace_back_default xD2 (vec1 [4; 5] 2)) (world1 [4; 5] 2 [EvOk 6; EvOk 1; EvOk 1; EvOk 1; EvOk 1; EvOk 1; EvFail 3]) (fun v' w' =>
    w_err w' = None /\ length (w_orc w') = 1 /\ w_heap w' = {[ 6%positive := Block 0 4 4 (map_seq 0 [4; 5; 9]) ]} /\ m_finish v' = Ptr 6 3) /\
  runs (vec_resize_default xD2 (vec1 [4; 5] 2) 1) (world1 [4; 5] 2 []) (fun v' w' => m_finish v' = Ptr 1 1).
Proof. split; [compute_run|]. split; compute_run. Qed.
