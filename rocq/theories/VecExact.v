(** * Vector operations outside the range of the partial theorems *)
From Verif Require Export VecExtra Stops.

Section exact.
  Context {V : Type} (cf : cfg V).
  Notation W := (world (vblock V)).
  Implicit Types w : W.
  Implicit Types h : gmap addr (vblock V).

  (** The argument cannot be read, neither before nor after a default construction. *)
  Lemma stops_construct_bad f w b o q blk (Q : _ -> W -> Prop) :
    w_err w = None -> w_heap w !! b = Some blk -> o < b_room blk -> b_live blk !! o = None ->
    (forall w1, w_heap w1 = w_heap w \/
       w_heap w1 = <[b:=Block (b_alloc blk) (b_req blk) (b_room blk) (<[o:=c_default cf]> (b_live blk))]> (w_heap w) ->
       read q w1 = Fault f) ->
    (forall orc code, c_kind cf = TwoPhase -> Q tt (World (w_heap w) orc (Some (EElem code)) (w_allocs w) (S (w_ctors w)))) ->
    stops f (construct_at cf (Ptr b o) (ARef q)) w Q.
  Proof.
    intros He Hb Ho Hl Hr Hfail. unfold construct_at, construct. cbn [read_arg]. destruct (c_kind cf) eqn:Hk.
    - sstep. apply runs_tick_ctor. apply stops_fault_bind. apply Hr. by left.
    - sstep. apply runs_tick_ctor. apply stops_fault_bind. apply Hr. by left.
    - sstep. apply runs_tick_ctor. sstep. apply runs_next_event. intros ev orc; simpl. sstep. destruct ev.
      + apply runs_put_err. sstep. apply runs_has_err; simpl. apply stops_ret. by apply Hfail.
      + eapply runs_place; [done..|]. simpl. rewrite He. sstep. apply runs_has_err; simpl.
        apply stops_fault_bind. apply Hr. by right.
  Qed.

  (** The argument is the place of construction itself: a constructor reads
      raw storage, a two-phase initialiser the default-constructed object. *)
  Lemma stops_construct_self w b o blk (Q : _ -> W -> Prop) :
    w_err w = None -> w_heap w !! b = Some blk -> o < b_room blk -> b_live blk !! o = None ->
    (forall orc, c_kind cf = TwoPhase ->
       Q tt (World (<[b:=Block (b_alloc blk) (b_req blk) (b_room blk) (<[o:=c_default cf]> (b_live blk))]> (w_heap w))
               orc None (w_allocs w) (S (w_ctors w)))) ->
    (forall orc code, c_kind cf = TwoPhase -> Q tt (World (w_heap w) orc (Some (EElem code)) (w_allocs w) (S (w_ctors w)))) ->
    stops FRaw (construct_at cf (Ptr b o) (ARef (Ptr b o))) w Q.
  Proof.
    intros He Hb Ho Hl Hok Hfail. unfold construct_at, construct. cbn [read_arg].
    assert (Hr : forall w1, w_heap w1 = w_heap w -> read (Ptr b o) w1 = Fault FRaw).
    { intros w1 Hw1. unfold read, load_block, load, bind, get_heap. rewrite Hw1, Hb. simpl. by rewrite decide_True, Hl by done. }
    destruct (c_kind cf) eqn:Hk.
    - sstep. apply runs_tick_ctor. apply stops_fault_bind. by apply Hr.
    - sstep. apply runs_tick_ctor. apply stops_fault_bind. by apply Hr.
    - sstep. apply runs_tick_ctor. sstep. apply runs_next_event. intros ev orc; simpl. sstep. destruct ev.
      + apply runs_put_err. sstep. apply runs_has_err; simpl. apply stops_ret. by apply Hfail.
      + eapply runs_place; [done..|]. simpl. rewrite He. sstep. apply runs_has_err; simpl.
        sstep. eapply runs_eq.
        { unfold read, load_block, load, bind, get_heap. simpl. rewrite lookup_insert. simpl.
          rewrite decide_True by done. rewrite lookup_insert. reflexivity. }
        sstep. apply runs_next_event. intros ev2 orc2; simpl. sstep. destruct ev2.
        * apply runs_put_err. sstep. apply runs_has_err; simpl. apply runs_stops. eapply runs_destroy1; simpl.
          { by rewrite lookup_insert. } { done. } { simpl. by rewrite lookup_insert. }
          simpl. rewrite insert_insert, delete_insert by done.
          destruct blk; simpl in *. rewrite insert_id by done. by apply Hfail.
        * eapply runs_overwrite; simpl.
          { by rewrite lookup_insert. } { done. } { simpl. by rewrite lookup_insert. }
          simpl. sstep. apply runs_has_err; simpl. apply stops_ret.
          rewrite !insert_insert. by apply Hok.
  Qed.

  (** Making room succeeded; what the construction does is a parameter. *)
  Lemma stops_insert_room f (X : V -> Prop) v b l cap hf i q w (Q : _ -> W -> Prop) :
    m_start v = Ptr b 0 -> m_finish v = Ptr b (length l) -> m_end_of_storage v = Ptr b cap ->
    length l < cap -> cap_ok cf cap -> i <= length l ->
    heap_is w {[b := Block (m_allocator v) cap cap (map_seq 0 l)]} hf -> w_err w = None ->
    (forall w' live', pat l i live' ->
       w_heap w' = <[b := Block (m_allocator v) cap cap live']> hf -> w_err w' = None ->
       stops f (construct_at cf (Ptr b i) (ARef q)) w' (fun _ w1 =>
         (exists code, c_kind cf = TwoPhase /\ w_err w1 = Some (EElem code) /\ w_heap w1 = w_heap w') \/
         (exists x, X x /\ w_err w1 = None /\ w_heap w1 = <[b := Block (m_allocator v) cap cap (<[i:=x]> live')]> hf))) ->
    (forall w' code,
      w_err w' = Some (EElem code) -> c_kind cf <> Nothrow ->
      ((exists hv', vec_owns cf v l cap hv' /\ heap_is w' hv' hf) \/ i < length l /\ vec_broken v l i hf w') ->
      i < length l \/ c_kind cf = TwoPhase -> Q (vec_end v, v) w') ->
    (forall r w' x, X x -> w_err w' = None ->
      (exists hv', vec_owns cf r.2 (take i l ++ x :: drop i l) cap hv' /\ heap_is w' hv' hf) -> Q r w') ->
    stops f (let! cap := vec_capacity v in
          let! n := vec_size v in
          do! assert_ cf (bool_decide (n < cap)) in
          let last := m_finish v in
          let! first := padd (m_start v) i in
          let! ok := shift_loop cf (S (poff last)) last first in
          if negb ok then ret (vec_end v, v) else
          do! construct_at cf first (ARef q) in
          let! e := has_err in
          if (e : bool) then ret (vec_end v, v) else
          let! fin := padd (m_finish v) 1 in
          ret (first, Vec (m_allocator v) (m_start v) fin (m_end_of_storage v))) w Q.
  Proof.
    intros Hs Hf Hen Hlt Hc Hi [Hw Hd] He Ha HQ HX.
    rewrite map_disjoint_singleton_l in Hd. rewrite <-insert_union_singleton_l in Hw.
    sstep. unfold vec_capacity. rewrite Hen, Hs. apply runs_pdiff; [lia|]. rewrite Nat.sub_0_r.
    sstep. unfold vec_size. rewrite Hf, Hs. apply runs_pdiff; [lia|]. rewrite Nat.sub_0_r.
    sstep. apply runs_assert; [by apply bool_decide_eq_true|]. cbv zeta.
    sstep. eapply runs_padd; [by rewrite Hw, lookup_insert|simpl; lia|]. rewrite Nat.add_0_l.
    sstep. eapply runs_shift_loop with (l := l).
    - done.
    - by rewrite Hw, lookup_insert.
    - by apply pat_end.
    - done.
    - done.
    - done.
    - simpl. lia.
    - intros live' orc nc Hp. simpl. rewrite Hw, insert_insert.
      apply stops_bind. eapply stops_mono; [by eapply Ha|]. cbv beta. intros _ w1 [(code & Hk & He1 & Hw1)|(x & Hx & He1 & Hw1)].
      + sstep. apply runs_has_err. rewrite He1. apply stops_ret. simpl in Hw1.
        eapply HQ; [done|congruence| |by right]. destruct (decide (i = length l)) as [->|].
        * left. apply pat_end in Hp as ->. eexists. split; [by right; exists b; repeat split; try done; lia|].
          split; simpl; [by rewrite Hw1, insert_union_singleton_l|by rewrite map_disjoint_singleton_l].
        * right. split; [lia|]. exists b, cap, i, live'. repeat split; try done; try lia; simpl;
            [by rewrite Hw1, insert_union_singleton_l|by rewrite map_disjoint_singleton_l].
      + sstep. apply runs_has_err. rewrite He1. sstep. eapply runs_padd; [by rewrite Hw1, lookup_insert|simpl; lia|].
        apply stops_ret. eapply HX; [done|done|]. simpl. erewrite pat_insert in Hw1 by done.
        eexists. split.
        * right. exists b. simpl. split; [done|].
          assert (length (take i l ++ x :: drop i l) = length l + 1) as ->.
          { rewrite app_length; simpl. rewrite take_length, drop_length. lia. }
          repeat split; try done. lia.
        * split; simpl; [by rewrite Hw1, insert_union_singleton_l|by rewrite map_disjoint_singleton_l].
    - intros live' j' orc code nc Hk Hj Hp. simpl. rewrite Hw, insert_insert. apply stops_ret.
      eapply HQ; simpl; try done; [|left; lia].
      destruct (decide (j' = length l)) as [->|].
      + left. apply pat_end in Hp as ->. eexists. split; [by right; exists b; repeat split; try done; lia|].
        split; simpl; [by rewrite insert_union_singleton_l|by rewrite map_disjoint_singleton_l].
      + right. split; [lia|]. exists b, cap, j', live'. repeat split; try done; try lia; simpl;
          [by rewrite insert_union_singleton_l|by rewrite map_disjoint_singleton_l].
  Qed.

  Lemma insert_checks v l cap hv i :
    vec_owns cf v l cap hv -> i <= length l ->
    pleb (m_start v) (vec_pos v i) = true /\ pleb (vec_pos v i) (m_finish v) = true /\
    pdiff (vec_pos v i) (m_start v) = @ret (vblock V) _ i.
  Proof.
    intros Ho Hi.
    unfold vec_pos. destruct Ho as [(Hs & Hf & Hen & -> & -> & ->)|(bs & Hs & Hf & Hen & _ & _ & ->)];
        rewrite Hs, Hf; simpl.
    - simpl in Hi. by replace i with 0 by lia.
    - rewrite !bool_decide_eq_true_2 by (split; [done|lia]). unfold pdiff.
      rewrite decide_True by (split; [done|lia]). by rewrite Nat.sub_0_r.
  Qed.

  (** insert(pos, v[k]) that must reallocate. *)
  Lemma stops_insert_full v l hv hf i k w (Q : _ -> W -> Prop) :
    cfg_ok cf -> vec_owns cf v l (length l) hv -> heap_is w hv hf -> w_err w = None ->
    i <= length l -> k < length l ->
    (forall r w' e, w_err w' = Some e ->
      ((r.2 = v /\ w_heap w' = w_heap w) \/
       ((i < length l \/ c_kind cf = TwoPhase) /\ c_kind cf <> Nothrow /\
        ((exists cap' hv', vec_owns cf r.2 l cap' hv' /\ heap_is w' hv' hf) \/ i < length l /\ vec_broken r.2 l i hf w'))) ->
      Q r w') ->
    stops FFreed (insert_value cf v (vec_pos v i) (ARef (vec_pos v k))) w Q.
  Proof.
    intros Hcf Ho Hh He Hi Hk HQ. unfold insert_value.
    pose proof (owns_cap_ok _ _ _ _ _ Hcf Ho) as Hco.
    destruct (insert_checks v l _ hv i Ho Hi) as (Hp1 & Hp2 & Hp3).
    sstep. apply runs_assert; [done|]. sstep. apply runs_assert; [done|].
    sstep. rewrite Hp3. apply runs_ret.
    sstep. eapply owns_capacity; [done|]. sstep. eapply owns_size; [done|].
    apply stops_bind. rewrite decide_True by done.
    assert (Hsz : sz (length l + 1) = S (length l)).
    { rewrite sz_fits; [lia|]. eapply bytes_fits; [done|]. replace (length l + 1) with (S (length l)) by lia.
      by apply cap_S_bytes. }
    rewrite Hsz. sstep. eapply runs_grow; try done.
    - by apply cap_S_bytes.
    - left; lia.
    - intros v' b hv' w' Hs' Hal' Hfresh Ho' Hh' He' Hna.
      sstep. apply runs_has_err. rewrite He'. apply stops_ret.
      destruct Ho' as [(Hs & _)|(b' & Hs & Hf & Hen & Hle' & Hc' & ->)]; [congruence|].
      rewrite Hs' in Hs. injection Hs as <-.
      destruct Ho as [(Hs0 & _ & _ & -> & _)|(b0 & Hs0 & _ & _ & _ & _ & ->)]; [simpl in *; lia|].
      destruct Hh as [Hw0 Hd0]. rewrite Hw0, <-insert_union_singleton_l in Hfresh.
      apply lookup_insert_None in Hfresh as [Hfb Hne].
      rewrite map_disjoint_singleton_l in Hd0.
      pose proof (grow_cap_ge (length l) (S (length l))) as Hge.
      eapply (stops_insert_room _ (fun _ => False) _ b l); try done.
      + intros w'' live' Hp Hw'' He''. eapply stops_construct_bad; [done|by rewrite Hw'', lookup_insert|simpl; lia| | |].
        * simpl. rewrite Hp. by rewrite decide_False, decide_True by lia.
        * intros w1 Hw1. unfold vec_pos. rewrite Hs0. unfold read, load_block, load, bind, get_heap.
          destruct Hw1 as [-> | ->]; rewrite Hw'', ?insert_insert, lookup_insert_ne by done; by rewrite Hd0.
        * intros orc code Hk2. left. by exists code.
      + intros w'' code He'' Hkind Hcase Hlt. eapply HQ; [done|]. right. split; [done|]. split; [done|].
        destruct Hcase as [(? & ?)|?]; [left; eauto|by right].
    - intros w' e Hhe He' Hna. sstep. apply runs_has_err. rewrite He'. apply stops_ret. apply stops_ret.
      eapply HQ; [done|]. by left.
  Qed.

  Lemma stops_insert_here v l cap hv hf i w (Q : _ -> W -> Prop) :
    vec_owns cf v l cap hv -> heap_is w hv hf -> w_err w = None ->
    i < length l -> length l < cap ->
    (forall r w' code, w_err w' = Some (EElem code) -> c_kind cf <> Nothrow ->
      ((exists hv', vec_owns cf r.2 l cap hv' /\ heap_is w' hv' hf) \/ vec_broken r.2 l i hf w') -> Q r w') ->
    (forall r w', c_kind cf = TwoPhase -> w_err w' = None ->
      (exists hv', vec_owns cf r.2 (take i l ++ c_default cf :: drop i l) cap hv' /\ heap_is w' hv' hf) -> Q r w') ->
    stops FRaw (insert_value cf v (vec_pos v i) (ARef (vec_pos v i))) w Q.
  Proof.
    intros Ho Hh He Hi Hcap HQ HX. unfold insert_value.
    destruct (insert_checks v l _ hv i Ho ltac:(lia)) as (Hp1 & Hp2 & Hp3).
    sstep. apply runs_assert; [done|]. sstep. apply runs_assert; [done|].
    sstep. rewrite Hp3. apply runs_ret.
    sstep. eapply owns_capacity; [done|]. sstep. eapply owns_size; [done|].
    apply stops_bind. rewrite decide_False by lia. apply stops_ret.
    destruct Ho as [(Hs0 & _ & _ & -> & _)|(b & Hs & Hf & Hen & Hle & Hc & ->)]; [simpl in *; lia|].
    eapply (stops_insert_room _ (fun x => c_kind cf = TwoPhase /\ x = c_default cf) _ b l); try done; [lia| | |].
    - intros w'' live' Hp Hw'' He''. unfold vec_pos. rewrite Hs.
      eapply stops_construct_self; [done|by rewrite Hw'', lookup_insert|simpl; lia| | |].
      + simpl. rewrite Hp. by rewrite decide_False, decide_True by lia.
      + intros orc Hk. right. exists (c_default cf). split; [done|]. split; [done|]. simpl. by rewrite Hw'', insert_insert.
      + intros orc code Hk. left. by exists code.
    - intros w'' code He'' Hkind Hcase _. eapply HQ; [done|done|]. destruct Hcase as [?|[_ ?]]; [by left|by right].
    - intros r w'' x (Hk & ->) He'' Hown. by apply HX.
  Qed.

  (** insert(pos, v[k]) with k behind pos: the element in front of v[k] is inserted. *)
  Lemma runs_insert_behind v l cap hv hf i k x w (Q : _ -> W -> Prop) :
    vec_owns cf v l cap hv -> heap_is w hv hf -> w_err w = None ->
    i < k -> l !! (k - 1) = Some x -> k < length l -> length l < cap ->
    (forall r w', w_err w' = None -> (exists hv', vec_owns cf r.2 (take i l ++ x :: drop i l) cap hv' /\ heap_is w' hv' hf) -> Q r w') ->
    (forall r w' code, w_err w' = Some (EElem code) -> c_kind cf <> Nothrow ->
      ((exists hv', vec_owns cf r.2 l cap hv' /\ heap_is w' hv' hf) \/ vec_broken r.2 l i hf w') -> Q r w') ->
    runs (insert_value cf v (vec_pos v i) (ARef (vec_pos v k))) w Q.
  Proof.
    intros Ho Hh He Hi Hx Hk Hcap Hok Hfail. unfold insert_value.
    destruct (insert_checks v l _ hv i Ho ltac:(lia)) as (Hp1 & Hp2 & Hp3).
    rbind. apply runs_assert; [done|]. rbind. apply runs_assert; [done|].
    rbind. rewrite Hp3. apply runs_ret.
    rbind. eapply owns_capacity; [done|]. rbind. eapply owns_size; [done|].
    rbind. rewrite decide_False by lia. apply runs_ret.
    destruct Ho as [(Hs0 & _ & _ & -> & _)|(b & Hs & Hf & Hen & Hle & Hc & ->)]; [simpl in *; lia|].
    eapply (runs_insert_room cf v b l cap hf i _ x); try done; [lia| |].
    - intros w'' live' Hp Hw''. simpl. unfold vec_pos. rewrite Hs. unfold read, load_block, load, bind, get_heap.
      rewrite Hw'', lookup_insert. cbn [ret b_room b_live]. rewrite decide_True by lia.
      specialize (Hp k). rewrite !decide_False in Hp by lia. by rewrite Hp, Hx.
    - intros r w'' Hal'' Hs'' Hen'' Hna'' [(He' & _ & Hown)|(e & He' & _ & (Hkind & code & ->) & Hown)].
      + by apply Hok.
      + eapply Hfail; [done|done|]. destruct Hown as [Hown|(_ & _ & _ & _ & Hb)]; [by left|by right].
  Qed.

  (** resize(n, v[k]) that grows. *)
  Lemma stops_resize v l cap hv hf n k w (Q : _ -> W -> Prop) :
    cfg_ok cf -> vec_owns cf v l cap hv -> heap_is w hv hf -> w_err w = None ->
    (N.of_nat n * c_sizeof cf < 2^64)%N -> cap < n \/ fits (3 * (cap + 1)) ->
    length l < n -> k < length l ->
    (forall w' e, w_heap w' = w_heap w -> w_err w' = Some e -> Q v w') ->
    (forall v' cap' hv' w' e, c_kind cf = TwoPhase -> vec_owns cf v' l cap' hv' -> heap_is w' hv' hf -> w_err w' = Some e -> Q v' w') ->
    stops FFreed (vec_resize cf v n (ARef (vec_pos v k))) w Q.
  Proof.
    intros Hcf Ho Hh He Hb Hgt Hn Hk HQ HX. unfold vec_resize.
    sstep. eapply owns_size; [done|]. rewrite decide_False by lia.
    sstep. eapply runs_grow; try done.
    - intros v' b hv' w' Hs' Hal' Hfresh Ho' Hh' He' Hna.
      sstep. apply runs_has_err. rewrite He'. 
      destruct Ho' as [(Hs & _)|(b' & Hs & Hf & Hen & Hle' & Hc' & ->)]; [congruence|].
      rewrite Hs' in Hs. injection Hs as <-.
      destruct Ho as [(Hs0 & _ & _ & -> & _)|(b0 & Hs0 & _ & _ & _ & _ & ->)]; [simpl in *; lia|].
      destruct Hh as [Hw0 Hd0]. rewrite Hw0, <-insert_union_singleton_l in Hfresh.
      apply lookup_insert_None in Hfresh as [Hfb Hne]. rewrite map_disjoint_singleton_l in Hd0.
      destruct Hh' as [Hw' Hd']. rewrite <-insert_union_singleton_l in Hw'.
      cbn [resize_loop]. rewrite Hs'. sstep. eapply runs_padd; [by rewrite Hw', lookup_insert|simpl; pose proof (grow_cap_ge cap n); lia|].
      rewrite Nat.add_0_l, Hf. cbn [pltb]. rewrite bool_decide_eq_true_2 by (split; [done|lia]).
      pose proof (grow_cap_ge cap n) as Hge.
      apply stops_bind. eapply stops_construct_bad; [done|by rewrite Hw', lookup_insert|simpl; lia| | |].
      + simpl. apply lookup_map_seq_None. lia.
      + intros w1 Hw1. unfold vec_pos. rewrite Hs0. unfold read, load_block, load, bind, get_heap.
        destruct Hw1 as [-> | ->]; rewrite Hw', ?insert_insert, lookup_insert_ne by done; by rewrite Hd0.
      + intros orc code Hk2. sstep. apply runs_has_err. simpl. apply stops_ret.
        eapply HX; [done|right; exists b; done| |done]. split; simpl; [by rewrite Hw', insert_union_singleton_l|done].
    - intros w' e Hhe He' Hna. sstep. apply runs_has_err. rewrite He'. apply stops_ret. by eapply HQ.
  Qed.

  (** resize(n, v[k]) that does not grow does not look at its argument. *)
  Lemma resize_shrink v l cap hv n a a' w :
    vec_owns cf v l cap hv -> n <= length l -> vec_resize cf v n a w = vec_resize cf v n a' w.
  Proof.
    intros Ho Hn. unfold vec_resize.
    assert (Hs : vec_size v w = Done (length l) w).
    { destruct (owns_size cf v l cap hv w (fun a w' => a = length l /\ w' = w) Ho ltac:(done)) as (a0 & w' & E & -> & ->). done. }
    unfold bind at 1. rewrite Hs. rewrite decide_True by done. unfold bind at 3. rewrite Hs. by rewrite decide_True by done.
  Qed.

  (** What allocate(n) really provides. *)
  Definition room_for (n : nat) : nat := N.to_nat ((N.of_nat n * c_sizeof cf) mod 2^64 / c_sizeof cf)%N.

  Lemma runs_allocate_any al n w (Q : _ -> W -> Prop) :
    (forall b orc, w_heap w !! b = None ->
       Q (Ptr b 0) (World (<[b:=Block al n (room_for n) ∅]> (w_heap w)) orc (w_err w) (S (w_allocs w)) (w_ctors w))) ->
    (forall orc, Q Null (World (w_heap w) orc (Some EBadAlloc) (S (w_allocs w)) (w_ctors w))) ->
    runs (allocate cf al n) w Q.
  Proof.
    intros Hok Hfail. unfold allocate, wrap64. case_decide as Hmax.
    - eapply runs_eq; [reflexivity|]. apply Hfail.
    - rbind. apply runs_alloc_cell.
      + intros a o Ha. apply runs_ret. by apply Hok.
      + intros o. apply runs_ret. apply Hfail.
  Qed.

  Lemma room_for_lt n : (0 < c_sizeof cf)%N -> (2^64 <= N.of_nat n * c_sizeof cf)%N <-> room_for n < n.
  Proof.
    intros Hs. unfold room_for. split.
    - intros Hbig. remember (N.of_nat n * c_sizeof cf)%N as b eqn:Hb.
      assert (b mod 2^64 < 2^64)%N by (apply N.mod_lt; lia).
      assert ((b mod 2^64) / c_sizeof cf < N.of_nat n)%N; [|lia].
      apply N.div_lt_upper_bound; lia.
    - intros Hr. destruct (decide (2^64 <= N.of_nat n * c_sizeof cf)%N) as [|Hn]; [done|]. exfalso.
      rewrite N.mod_small, N.div_mul, Nat2N.id in Hr by lia. lia.
  Qed.

  (** Copying into storage that may be too small. *)
  Lemma stops_construct_at w b o a v blk (Q : _ -> W -> Prop) :
    w_err w = None -> arg_val w a v -> w_heap w !! b = Some blk -> b_room blk <= o ->
    (forall orc code, Q tt (World (w_heap w) orc (Some (EElem code)) (w_allocs w) (S (w_ctors w)))) ->
    stops FBounds (construct_at cf (Ptr b o) a) w Q.
  Proof.
    intros He Ha Hb Ho Hfail. unfold construct_at, construct.
    assert (Har : forall w' (P : V -> W -> Prop), w_heap w' = w_heap w -> P v w' -> runs (read_arg a) w' P).
    { intros w' P Hw' HP. eapply runs_read_arg; [|done]. destruct a as [x|p]; [done|]. simpl in *.
      unfold read, load_block, load, bind, get_heap in *. destruct p as [|b' o']; [done|]. rewrite Hw'.
      destruct (w_heap w !! b') as [blk'|]; [|done]. simpl in *. case_decide; [|done]. destruct (b_live blk' !! o'); [|done].
      by injection Ha as ->. }
    assert (Hpl : forall w', w_heap w' = w_heap w -> place (Ptr b o) v w' = Fault FBounds).
    { intros w' Hw'. unfold place, load_block, load, bind, get_heap. rewrite Hw', Hb. simpl. by rewrite decide_False by lia. }
    destruct (c_kind cf).
    - sstep. apply runs_tick_ctor. sstep. apply Har; [done|]. apply stops_fault. by apply Hpl.
    - sstep. apply runs_tick_ctor. sstep. apply Har; [done|]. sstep. apply runs_next_event. intros ev orc; simpl. destruct ev.
      + apply runs_stops, runs_put_err. apply Hfail.
      + apply stops_fault. by apply Hpl.
    - sstep. apply runs_tick_ctor. sstep. apply runs_next_event. intros ev orc; simpl. destruct ev.
      + sstep. apply runs_put_err. sstep. apply runs_has_err; simpl. apply stops_ret. apply Hfail.
      + apply stops_fault_bind. unfold place, load_block, load, bind, get_heap. simpl. rewrite Hb. simpl. by rewrite decide_False by lia.
  Qed.

  Lemma stops_uninit_copy_loop fuel w bs bd src al rq rm l i (Q : _ -> W -> Prop) :
    bs <> bd -> w_err w = None ->
    w_heap w !! bs = Some src -> length l <= b_room src ->
    (forall k v, l !! k = Some v -> b_live src !! k = Some v) ->
    w_heap w !! bd = Some (Block al rq rm (map_seq 0 (take i l))) ->
    i <= length l -> i <= rm -> length l - i < fuel ->
    (length l <= rm -> forall orc nc, Q (Ptr bd (length l))
       (World (<[bd:=Block al rq rm (map_seq 0 l)]> (w_heap w)) orc None (w_allocs w) nc)) ->
    (forall p orc code nc, Q p
       (World (<[bd:=Block al rq rm ∅]> (w_heap w)) orc (Some (EElem code)) (w_allocs w) nc)) ->
    stops FBounds (uninitialised_copy_loop cf fuel (Ptr bs i) (Ptr bs (length l)) (Ptr bd 0) (Ptr bd i)) w Q.
  Proof.
    intros Hne. revert w i Q. induction fuel as [|fuel IH];
      intros w i Q He Hbs Hroom Hsrc Hbd Hi Hrm Hfuel Hok Hfail; [lia|].
    simpl. case_decide as Heq.
    - simplify_eq. apply stops_ret. rewrite take_ge in Hbd by lia.
      specialize (Hok Hrm (w_orc w) (w_ctors w)). rewrite insert_id in Hok by done.
      by destruct w; simpl in *; subst.
    - assert (i < length l) by (assert (i <> length l) by congruence; lia).
      destruct (lookup_lt_is_Some_2 l i) as [v Hv]; [done|].
      assert (Htl : length (take i l) = i) by (rewrite take_length; lia).
      assert (Hav : arg_val w (ARef (Ptr bs i)) v).
      { simpl. unfold read, load_block, load, bind, get_heap. rewrite Hbs. simpl.
        rewrite decide_True by lia. by rewrite (Hsrc _ _ Hv). }
      assert (Hfailed : forall orc code, stops FBounds
        (let! e := has_err in
         if (e : bool) then do! destroy (Ptr bd 0) (Ptr bd i) in ret (Ptr bd i)
         else let! first' := padd (Ptr bs i) 1 in let! cur' := padd (Ptr bd i) 1 in
              uninitialised_copy_loop cf fuel first' (Ptr bs (length l)) (Ptr bd 0) cur')
        (World (w_heap w) orc (Some (EElem code)) (w_allocs w) (S (w_ctors w))) Q).
      { intros orc code. sstep. apply runs_has_err; simpl. sstep.
        replace (Ptr bd i) with (Ptr bd (length (take i l))) by (by rewrite Htl).
        eapply runs_destroy_all; [done|lia|]. simpl. apply stops_ret. apply Hfail. }
      apply stops_bind. destruct (decide (i < rm)) as [Hlt|Hge].
      + apply runs_stops. eapply (runs_construct_at _ _ _ _ (ARef (Ptr bs i)) v); try done.
        * simpl. rewrite lookup_map_seq_0. apply lookup_ge_None. lia.
        * intros orc. simpl. sstep. apply runs_has_err; simpl.
          sstep. eapply runs_padd; [simpl; by rewrite lookup_insert_ne|simpl; lia|].
          sstep. eapply runs_padd; [simpl; by rewrite lookup_insert|simpl; lia|].
          replace (i + 1) with (S i) by lia.
          eapply IH; simpl.
          -- done.
          -- by rewrite lookup_insert_ne.
          -- done.
          -- done.
          -- rewrite lookup_insert. do 2 f_equal. erewrite take_S_r by done. rewrite map_seq_snoc. by rewrite Htl.
          -- lia.
          -- lia.
          -- lia.
          -- intros. rewrite insert_insert. by apply Hok.
          -- intros. rewrite insert_insert. apply Hfail.
      + eapply (stops_construct_at _ _ _ (ARef (Ptr bs i)) v); try done. simpl. lia.
  Qed.

  (** reserve(n) whose byte count overflows. *)
  Lemma stops_reserve_overflow v l cap hv hf n w (Q : _ -> W -> Prop) :
    cfg_ok cf -> vec_owns cf v l cap hv -> heap_is w hv hf -> w_err w = None ->
    fits n -> (2^64 <= N.of_nat n * c_sizeof cf)%N ->
    (forall w' e, w_heap w' = w_heap w -> w_err w' = Some e -> Q v w') ->
    stops FBounds (vec_reserve cf v n) w Q.
  Proof.
    intros Hcf Ho [Hw Hd] He Hfit Hbig HQ. unfold vec_reserve.
    pose proof (owns_cap_ok _ _ _ _ _ Hcf Ho) as Hco.
    assert (Hroom : room_for n < n) by (apply room_for_lt; [destruct Hcf as [[??]?]; lia|done]).
    assert (cap < n).
    { pose proof (cap_ok_bytes _ _ Hcf Hco). destruct Hcf as [[??]?]. nia. }
    sstep. eapply owns_capacity; [done|]. rewrite decide_False by lia.
    rewrite decide_False by (unfold fits, size_max in *; lia).
    unfold do_reserve. sstep. apply runs_allocate_any.
    2:{ intros orc. sstep. apply runs_has_err; simpl. apply stops_ret. by eapply HQ. }
    intros bd orc Hbd. sstep. apply runs_has_err; simpl. rewrite He.
    destruct Ho as [(Hs & Hf & Hen & -> & -> & ->)|(bs & Hs & Hf & Hen & Hle & Hc & ->)]; rewrite Hs, Hf.
    - sstep. unfold uninitialised_copy; simpl. apply runs_ret.
      sstep. apply runs_has_err; simpl.
      sstep. unfold vec_size; rewrite Hs, Hf; simpl. apply runs_pdiff_null.
      sstep. apply runs_destroy_null.
      sstep. rewrite Hen; simpl. apply runs_pdiff_null.
      sstep. apply runs_deallocate_null.
      sstep. eapply runs_padd; [simpl; by rewrite lookup_insert|simpl; lia|].
      apply stops_fault_bind. unfold padd, load_block, load, bind, get_heap. simpl. rewrite lookup_insert. simpl.
      by rewrite decide_False by lia.
    - rewrite map_disjoint_singleton_l in Hd. rewrite <-insert_union_singleton_l in Hw.
      assert (bs <> bd) by (intros ->; rewrite Hw, lookup_insert in Hbd; done).
      apply stops_bind. unfold uninitialised_copy. eapply stops_uninit_copy_loop with (rm := room_for n); simpl.
      + done.
      + done.
      + rewrite lookup_insert_ne by done. by rewrite Hw, lookup_insert.
      + done.
      + intros k x Hk. simpl. by rewrite lookup_map_seq_0.
      + by rewrite lookup_insert.
      + lia.
      + lia.
      + lia.
      + intros Hlr orc' nc. rewrite insert_insert. sstep. apply runs_has_err; simpl.
        sstep. unfold vec_size; rewrite Hs, Hf. apply runs_pdiff; [lia|]. rewrite Nat.sub_0_r.
        sstep. eapply runs_destroy_all; [simpl; rewrite lookup_insert_ne by done; by rewrite Hw, lookup_insert|done|].
        sstep. rewrite Hen. apply runs_pdiff; [lia|]. rewrite Nat.sub_0_r.
        sstep. eapply runs_deallocate; simpl; [by rewrite lookup_insert|].
        sstep. eapply runs_padd; [simpl; rewrite lookup_delete_ne, lookup_insert_ne, lookup_insert by done; done|simpl; lia|].
        apply stops_fault_bind. unfold padd, load_block, load, bind, get_heap. simpl.
        rewrite lookup_delete_ne, lookup_insert_ne, lookup_insert by done. simpl. by rewrite decide_False by lia.
      + intros p orc' code nc. rewrite insert_insert. sstep. apply runs_has_err; simpl.
        sstep. eapply runs_deallocate; simpl; [by rewrite lookup_insert|].
        apply stops_ret. eapply HQ; simpl; [|done]. by rewrite delete_insert.
  Qed.

  (** A vector that holds storage of another allocator. *)
  Lemma destroy_foreign v o l cap ho hf w :
    vec_owns cf o l cap ho -> ho <> ∅ -> heap_is w ho hf ->
    m_start v = m_start o -> m_finish v = m_finish o -> m_end_of_storage v = m_end_of_storage o ->
    m_allocator v <> m_allocator o -> vec_destroy v w = Fault FAlloc.
  Proof.
    intros Ho Hne [Hw Hd] H1 H2 H3 H4. apply stops_false. unfold vec_destroy.
    destruct Ho as [(_ & _ & _ & _ & _ & ->)|(bs & Hs & Hf & Hen & Hle & Hc & ->)]; [done|].
    rewrite H1, H2, H3, Hs, Hf, Hen. rewrite map_disjoint_singleton_l in Hd. rewrite <-insert_union_singleton_l in Hw.
    sstep. eapply runs_destroy_all; [by rewrite Hw, lookup_insert|done|].
    sstep. apply runs_pdiff; [lia|]. rewrite Nat.sub_0_r.
    unfold deallocate. sstep. apply runs_get_heap. simpl. rewrite lookup_insert. simpl.
    rewrite decide_False by naive_solver. rewrite decide_True by done. by apply stops_fault.
  Qed.

  Lemma runs_move_assign_any v l cap hv o lo capo ho hf w (Q : _ -> W -> Prop) :
    vec_owns cf v l cap hv -> vec_owns cf o lo capo ho ->
    heap_is w hv (ho ∪ hf) -> ho ##ₘ hf ->
    Q (Vec (m_allocator v) (m_start o) (m_finish o) (m_end_of_storage o), Vec (m_allocator o) Null Null Null) (set_heap (ho ∪ hf) w) ->
    runs (vec_move_assign v o) w Q.
  Proof.
    intros Ho Hoo Hh Hd HQ. unfold vec_move_assign, vec_move_ctor, swap_data. simpl.
    rbind. eapply runs_vec_destroy; [by apply owns_move|done|]. by apply runs_ret.
  Qed.

  (** An error object that is set on entry: construction in place. *)
  Lemma runs_construct_stale w b o a v blk e (Q : _ -> W -> Prop) :
    w_err w = Some e -> arg_val w a v ->
    w_heap w !! b = Some blk -> o < b_room blk -> b_live blk !! o = None ->
    (forall u orc nc, Q tt (World (<[b:=Block (b_alloc blk) (b_req blk) (b_room blk) (<[o:=u]> (b_live blk))]> (w_heap w))
                   orc (Some e) (w_allocs w) nc)) ->
    (forall orc code nc, Q tt (World (w_heap w) orc (Some (EElem code)) (w_allocs w) nc)) ->
    runs (construct_at cf (Ptr b o) a) w Q.
  Proof.
    intros He Ha Hb Ho Hl Hok Hfail. unfold construct_at, construct.
    destruct (c_kind cf) eqn:Hk.
    - rbind. apply runs_tick_ctor. rbind. eapply runs_read_arg; [eapply (arg_val_place w _ a v b o v); by eauto|]. eapply runs_place; [done..|]. simpl. rewrite He. apply Hok.
    - rbind. apply runs_tick_ctor. rbind. eapply runs_read_arg; [eapply (arg_val_place w _ a v b o v); by eauto|].
      rbind. apply runs_next_event. intros ev orc; simpl.
      destruct ev.
      + apply runs_put_err. by apply Hfail.
      + eapply runs_place; [done..|]. simpl. rewrite He. apply Hok.
    - rbind. apply runs_tick_ctor. rbind. apply runs_next_event. intros ev orc; simpl.
      rbind. destruct ev.
      + apply runs_put_err. rbind. apply runs_has_err; simpl. apply runs_ret. by apply Hfail.
      + eapply runs_place; [done..|]. simpl. rewrite He. rbind. apply runs_has_err; simpl.
        apply runs_ret. apply Hok.
  Qed.

  Lemma destroy_extra w b al cap l u :
    w_heap w !! b = Some (Block al cap cap (<[length l:=u]> (map_seq 0 l : gmap nat V))) -> length l < cap ->
    vec_destroy (Vec al (Ptr b 0) (Ptr b (length l)) (Ptr b cap)) w = Fault FLive.
  Proof.
    intros Hb Hlt. apply stops_false. unfold vec_destroy. cbn [m_start m_finish m_end_of_storage m_allocator].
    sstep. eapply runs_destroy; [done|lia|lia| |].
    - intros k Hk. rewrite lookup_insert_ne by lia. apply map_seq_is_Some. lia.
    - intros live' Hl'. sstep. apply runs_pdiff; [lia|]. rewrite Nat.sub_0_r.
      unfold deallocate. sstep. apply runs_get_heap. simpl. rewrite lookup_insert. simpl.
      rewrite decide_False by naive_solver. rewrite decide_False by naive_solver. rewrite decide_True; [by apply stops_fault|].
      intros E. specialize (Hl' (length l)). rewrite decide_False, lookup_insert in Hl' by lia. rewrite E in Hl'. done.
  Qed.

  Lemma runs_push_back_stale v l cap hv hf a x e w (Q : _ -> W -> Prop) :
    cfg_ok cf -> vec_owns cf v l cap hv -> heap_is w hv hf -> w_err w = Some e ->
    arg_outside (hv ∪ hf) a x ->
    (forall w', w_err w' <> None -> w_heap w' = w_heap w -> Q v w') ->
    (forall w' b n, w_err w' <> None -> length l = cap -> w_heap w !! b = None ->
       w_heap w' = <[b := Block (m_allocator v) n n ∅]> (w_heap w) -> Q v w') ->
    (forall w', w_err w' <> None -> length l < cap -> vec_destroy v w' = Fault FLive -> Q v w') ->
    runs (vec_push_back cf v a) w Q.
  Proof.
    intros Hcf Ho Hh He Ha Hnone Hleak Hlive.
    pose proof (owns_cap_ok _ _ _ _ _ Hcf Ho) as Hco. pose proof (owns_le _ _ _ _ _ Ho) as Hle.
    assert (Hav : arg_val w a x).
    { eapply (arg_outside_val ∅ (hv ∪ hf)); [done|destruct Hh as [-> _]; by rewrite (left_id_L ∅ (∪))|apply map_disjoint_empty_l]. }
    unfold vec_push_back, vec_insert. rbind. rewrite (owns_pos_end _ _ _ _ _ Ho). unfold insert_value.
    destruct (insert_checks v l _ hv (length l) Ho ltac:(lia)) as (Hp1 & Hp2 & Hp3).
    rbind. apply runs_assert; [done|]. rbind. apply runs_assert; [done|].
    rbind. rewrite Hp3. apply runs_ret.
    rbind. eapply owns_capacity; [done|]. rbind. eapply owns_size; [done|].
    rbind. case_decide as Hfull.
    - assert (Hsz : sz (cap + 1) = S cap).
      { rewrite sz_fits; [lia|]. eapply bytes_fits; [done|]. replace (cap + 1) with (S cap) by lia. by apply cap_S_bytes. }
      rewrite Hsz. rbind. unfold grow. rbind. eapply owns_capacity; [done|].
      pose proof (cap_S_bytes cf cap Hcf Hco) as HSc.
      pose proof (grow_cap_gt cap (S cap) ltac:(left; lia)) as Hgt.
      pose proof (grow_cap_bytes cf cap (S cap) Hcf Hco HSc) as Hgb.
      fold (grow_cap cap (S cap)).
      rbind. apply runs_assert; [by apply bool_decide_eq_true|].
      unfold vec_reserve. rbind. eapply owns_capacity; [done|]. rewrite decide_False by lia.
      rewrite decide_False by (pose proof (bytes_fits cf _ Hcf Hgb); unfold fits, size_max in *; lia).
      unfold do_reserve. rbind. apply runs_allocate; [done..| |].
      + intros b orc Hb _. rbind. apply runs_has_err; simpl. rewrite He. apply runs_ret.
        rbind. apply runs_has_err; simpl. apply runs_ret. apply runs_ret. apply runs_ret.
        simpl. eapply Hleak; simpl; [done|done|exact Hb|done].
      + intros orc. rbind. apply runs_has_err; simpl. apply runs_ret.
        rbind. apply runs_has_err; simpl. apply runs_ret. apply runs_ret. apply runs_ret. by apply Hnone.
    - apply runs_ret. assert (length l < cap) by lia.
      rbind. eapply owns_capacity; [done|]. rbind. eapply owns_size; [done|].
      rbind. apply runs_assert; [by apply bool_decide_eq_true|].
      destruct Ho as [(Hs0 & _ & _ & -> & -> & _)|(b & Hs & Hf & Hen & _ & Hc & ->)]; [simpl in *; lia|].
      destruct Hh as [Hw Hd]. rewrite map_disjoint_singleton_l in Hd. rewrite <-insert_union_singleton_l in Hw.
      rewrite Hs, Hf. rbind. eapply runs_padd; [by rewrite Hw, lookup_insert|simpl; lia|]. rewrite Nat.add_0_l.
      rbind. cbn [poff]. cbn [shift_loop]. rewrite decide_True by done. apply runs_ret. cbn [negb].
      rbind. eapply (runs_construct_stale w b (length l) a x); [done|done|by rewrite Hw, lookup_insert|simpl; lia| | |].
      + simpl. rewrite lookup_map_seq_0. by apply lookup_ge_None.
      + intros u orc nc. simpl. rbind. apply runs_has_err; simpl. apply runs_ret. apply runs_ret. simpl.
        apply Hlive; simpl; [done|done|]. destruct v as [al s f0 en]; simpl in *; subst.
        apply (destroy_extra _ b al cap l u); [|done]. simpl. by rewrite lookup_insert.
      + intros orc code nc. simpl. rbind. apply runs_has_err; simpl. apply runs_ret. apply runs_ret. simpl.
        by apply Hnone.
  Qed.

  (** resize() upwards always asks for storage. *)
  Lemma runs_resize_allocs v l cap hv hf n a x w :
    cfg_ok cf -> vec_owns cf v l cap hv -> heap_is w hv hf -> w_err w = None ->
    (N.of_nat n * c_sizeof cf < 2^64)%N -> cap < n \/ fits (3 * (cap + 1)) -> arg_outside hf a x -> length l < n ->
    runs (vec_resize cf v n a) w (fun _ w' => w_allocs w' = S (w_allocs w)).
  Proof. intros. eapply runs_resize; try done. lia. Qed.
End exact.
