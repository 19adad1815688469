(** * Proofs about the vector model *)
From Verif Require Export VecSpec.

#[global] Arguments padd : simpl never.
#[global] Arguments pdec : simpl never.
#[global] Arguments pdiff : simpl never.
#[global] Arguments place : simpl never.
#[global] Arguments read : simpl never.
#[global] Arguments overwrite : simpl never.
#[global] Arguments destroy1 : simpl never.
#[global] Arguments destroy : simpl never.
#[global] Arguments allocate : simpl never.
#[global] Arguments deallocate : simpl never.
#[global] Arguments construct_at : simpl never.
#[global] Arguments uninitialised_copy : simpl never.

Section proofs.
  Context {V : Type} (cf : cfg V).
  Notation W := (world (vblock V)).
  Implicit Types w : W.
  Implicit Types h : gmap addr (vblock V).

  (** ** Primitives *)

  Lemma set_heap_id w h : w_heap w = h -> set_heap h w = w.
  Proof. intros <-. by destruct w. Qed.

  Lemma runs_place w b o v blk (Q : _ -> W -> Prop) :
    w_heap w !! b = Some blk -> o < b_room blk -> b_live blk !! o = None ->
    Q tt (set_heap (<[b:=Block (b_alloc blk) (b_req blk) (b_room blk) (<[o:=v]> (b_live blk))]> (w_heap w)) w) ->
    runs (place (Ptr b o) v) w Q.
  Proof.
    intros Hb Ho Hl HQ. unfold place. rbind. eapply runs_load; [done|].
    rewrite decide_True by done. rewrite Hl. by eapply runs_store.
  Qed.

  Lemma runs_overwrite w b o v v0 blk (Q : _ -> W -> Prop) :
    w_heap w !! b = Some blk -> o < b_room blk -> b_live blk !! o = Some v0 ->
    Q tt (set_heap (<[b:=Block (b_alloc blk) (b_req blk) (b_room blk) (<[o:=v]> (b_live blk))]> (w_heap w)) w) ->
    runs (overwrite (Ptr b o) v) w Q.
  Proof.
    intros Hb Ho Hl HQ. unfold overwrite. rbind. eapply runs_load; [done|].
    rewrite decide_True by done. rewrite Hl. by eapply runs_store.
  Qed.

  Lemma runs_read w b o v blk (Q : _ -> W -> Prop) :
    w_heap w !! b = Some blk -> o < b_room blk -> b_live blk !! o = Some v ->
    Q v w -> runs (read (Ptr b o)) w Q.
  Proof.
    intros Hb Ho Hl HQ. unfold read. rbind. eapply runs_load; [done|].
    rewrite decide_True by done. rewrite Hl. by apply runs_ret.
  Qed.

  Lemma runs_destroy1 w b o v blk (Q : _ -> W -> Prop) :
    w_heap w !! b = Some blk -> o < b_room blk -> b_live blk !! o = Some v ->
    Q tt (set_heap (<[b:=Block (b_alloc blk) (b_req blk) (b_room blk) (delete o (b_live blk))]> (w_heap w)) w) ->
    runs (destroy1 (Ptr b o)) w Q.
  Proof.
    intros Hb Ho Hl HQ. unfold destroy1. rbind. eapply runs_load; [done|].
    rewrite decide_True by done. rewrite Hl. by eapply runs_store.
  Qed.

  Lemma runs_padd w b o n blk (Q : _ -> W -> Prop) :
    w_heap w !! b = Some blk -> o + n <= b_room blk ->
    Q (Ptr b (o + n)) w -> runs (padd (Ptr b o) n) w Q.
  Proof.
    intros Hb Ho HQ. unfold padd. rbind. eapply runs_load; [done|].
    rewrite decide_True by done. by apply runs_ret.
  Qed.

  Lemma runs_pdiff w b o o' (Q : _ -> W -> Prop) :
    o' <= o -> Q (o - o') w -> runs (pdiff (Ptr b o) (Ptr b o')) w Q.
  Proof. intros ? HQ. unfold pdiff. rewrite decide_True by done. by apply runs_ret. Qed.

  Lemma runs_deallocate w al b n rm (Q : _ -> W -> Prop) :
    w_heap w !! b = Some (Block al n rm ∅) ->
    Q tt (set_heap (delete b (w_heap w)) w) -> runs (deallocate al (Ptr b 0) n) w Q.
  Proof.
    intros Hb HQ. unfold deallocate. rbind. apply runs_get_heap. rewrite Hb. simpl.
    rewrite !decide_False by naive_solver. by eapply runs_free_cell.
  Qed.

  Lemma runs_deallocate_null w al n (Q : _ -> W -> Prop) : Q tt w -> runs (deallocate al Null n) w Q.
  Proof. intros. by apply runs_ret. Qed.
  Lemma runs_pdiff_null w (Q : _ -> W -> Prop) : Q 0 w -> runs (pdiff Null Null) w Q.
  Proof. intros. by apply runs_ret. Qed.

  (** An argument denotes the value [v]. *)
  Definition arg_val w (a : arg V) (v : V) : Prop :=
    match a with AVal x => x = v | ARef p => read p w = Done v w end.

  Lemma runs_read_arg w a v (Q : _ -> W -> Prop) :
    arg_val w a v -> Q v w -> runs (read_arg a) w Q.
  Proof.
    intros Ha HQ. destruct a as [x|p]; simpl in *.
    - subst. by apply runs_ret.
    - by eapply runs_eq.
  Qed.

  (** Neither counters nor a new object where there was none change what an
      argument denotes. *)
  Lemma arg_val_place w w1 a v b o u blk :
    arg_val w a v -> w_heap w !! b = Some blk -> b_live blk !! o = None ->
    w_heap w1 = w_heap w \/
      w_heap w1 = <[b:=Block (b_alloc blk) (b_req blk) (b_room blk) (<[o:=u]> (b_live blk))]> (w_heap w) ->
    arg_val w1 a v.
  Proof.
    intros Ha Hb Hl Hw1. destruct a as [x|[|b' o']]; [done|done|]. unfold arg_val, read, load_block, load, bind, get_heap in *.
    destruct (w_heap w !! b') as [blk'|] eqn:Hb'; [|done]. simpl in Ha.
    case_decide as Ho; [|done]. destruct (b_live blk' !! o') as [x|] eqn:Hx; [|done]. injection Ha as ->.
    destruct Hw1 as [Hw1|Hw1].
    - rewrite Hw1, Hb'. simpl. by rewrite decide_True, Hx by done.
    - rewrite Hw1. destruct (decide (b' = b)) as [->|Hne].
      + rewrite lookup_insert. simplify_eq. simpl. rewrite decide_True by done.
        rewrite lookup_insert_ne by congruence. by rewrite Hx.
      + rewrite lookup_insert_ne by done. rewrite Hb'. simpl. by rewrite decide_True, Hx by done.
  Qed.

  (** ** Construction of one element: done, or nothing happened *)

  Lemma runs_construct_at w b o a v blk (Q : _ -> W -> Prop) :
    w_err w = None -> arg_val w a v ->
    w_heap w !! b = Some blk -> o < b_room blk -> b_live blk !! o = None ->
    (forall orc, Q tt (World (<[b:=Block (b_alloc blk) (b_req blk) (b_room blk) (<[o:=v]> (b_live blk))]> (w_heap w))
                   orc None (w_allocs w) (S (w_ctors w)))) ->
    (forall orc code, c_kind cf <> Nothrow ->
       Q tt (World (w_heap w) orc (Some (EElem code)) (w_allocs w) (S (w_ctors w)))) ->
    runs (construct_at cf (Ptr b o) a) w Q.
  Proof.
    intros He Ha Hb Ho Hl Hok Hfail. unfold construct_at, construct.
    destruct (c_kind cf) eqn:Hk.
    - rbind. apply runs_tick_ctor. rbind. eapply runs_read_arg; [eapply (arg_val_place w _ a v b o v); by eauto|].
      eapply runs_place; [done..|]. simpl. rewrite He. apply Hok.
    - rbind. apply runs_tick_ctor. rbind. eapply runs_read_arg; [eapply (arg_val_place w _ a v b o v); by eauto|].
      rbind. apply runs_next_event. intros ev orc; simpl.
      destruct ev.
      + apply runs_put_err. by apply Hfail.
      + eapply runs_place; [done..|]. simpl. rewrite He. apply Hok.
    - rbind. apply runs_tick_ctor. rbind. apply runs_next_event. intros ev orc; simpl.
      rbind. destruct ev.
      + apply runs_put_err. rbind. apply runs_has_err; simpl. apply runs_ret. by apply Hfail.
      + eapply runs_place; [done..|]. simpl. rewrite He. rbind. apply runs_has_err; simpl.
        rbind. eapply runs_read_arg; [eapply (arg_val_place w _ a v b o (c_default cf)); [done|done|done|by right]|].
        rbind. apply runs_next_event. intros ev2 orc2; simpl. rbind. destruct ev2.
        * apply runs_put_err. rbind. apply runs_has_err; simpl.
          eapply runs_destroy1; simpl.
          { by rewrite lookup_insert. } { done. } { simpl. by rewrite lookup_insert. }
          simpl. rewrite insert_insert, delete_insert by done.
          destruct blk; simpl in *. rewrite insert_id by done. by apply Hfail.
        * eapply runs_overwrite; simpl.
          { by rewrite lookup_insert. } { done. } { simpl. by rewrite lookup_insert. }
          simpl. rbind. apply runs_has_err; simpl. apply runs_ret.
          rewrite !insert_insert. apply Hok.
  Qed.

  (** ** Destroying a range *)

  Lemma runs_destroy_loop fuel w b i j al rq rm live (Q : _ -> W -> Prop) :
    w_heap w !! b = Some (Block al rq rm live) ->
    i <= j -> j <= rm -> (forall k, i <= k < j -> is_Some (live !! k)) -> j - i < fuel ->
    (forall live', (forall k, live' !! k = if decide (i <= k < j) then None else live !! k) ->
       Q tt (set_heap (<[b:=Block al rq rm live']> (w_heap w)) w)) ->
    runs (destroy_loop fuel (Ptr b i) (Ptr b j)) w Q.
  Proof.
    revert w i live Q. induction fuel as [|fuel IH]; intros w i live Q Hb Hij Hj Hlive Hfuel HQ; [lia|].
    simpl. case_decide as Heq.
    - simplify_eq. apply runs_ret.
      rewrite <-(set_heap_id w (<[b:=Block al rq rm live]> (w_heap w))).
      + apply HQ. intros k. rewrite decide_False by lia. done.
      + by rewrite insert_id.
    - assert (i <> j) by congruence.
      destruct (Hlive i) as [v Hv]; [lia|].
      rbind. eapply runs_destroy1; [done|simpl; lia|done|]. simpl.
      rbind. eapply runs_padd; simpl; [by rewrite lookup_insert|simpl; lia|].
      replace (i + 1) with (S i) by lia.
      eapply (IH _ _ (delete i live)); simpl.
      + by rewrite lookup_insert.
      + lia.
      + lia.
      + intros k Hk. rewrite lookup_delete_ne by lia. apply Hlive. lia.
      + lia.
      + intros live' Hl'. rewrite insert_insert. apply HQ. intros k. rewrite Hl'.
        destruct (decide (k = i)) as [->|].
        * rewrite lookup_delete, !decide_False by lia. rewrite decide_True by lia. done.
        * rewrite lookup_delete_ne by done. do 2 case_decide; try lia; done.
  Qed.

  Lemma runs_destroy w b i j al rq rm live (Q : _ -> W -> Prop) :
    w_heap w !! b = Some (Block al rq rm live) ->
    i <= j -> j <= rm -> (forall k, i <= k < j -> is_Some (live !! k)) ->
    (forall live', (forall k, live' !! k = if decide (i <= k < j) then None else live !! k) ->
       Q tt (set_heap (<[b:=Block al rq rm live']> (w_heap w)) w)) ->
    runs (destroy (Ptr b i) (Ptr b j)) w Q.
  Proof.
    intros. unfold destroy. eapply runs_destroy_loop; try done. simpl. lia.
  Qed.

  Lemma runs_destroy_null w (Q : _ -> W -> Prop) :
    Q tt w -> runs (destroy Null Null) w Q.
  Proof. intros. unfold destroy. simpl. by apply runs_ret. Qed.

  Lemma map_seq_live (live : gmap nat V) (l : list V) :
    (forall k, live !! k = l !! k) -> live = map_seq 0 l.
  Proof. intros H. apply map_eq. intros k. by rewrite lookup_map_seq_0, H. Qed.

  Lemma map_seq_is_Some (l : list V) k : k < length l -> is_Some ((map_seq 0 l : gmap nat V) !! k).
  Proof. intros. rewrite lookup_map_seq_0. by apply lookup_lt_is_Some. Qed.

  (** destroying the whole contents leaves the block raw *)
  Lemma runs_destroy_all w b al rq rm l (Q : _ -> W -> Prop) :
    w_heap w !! b = Some (Block al rq rm (map_seq 0 l)) -> length l <= rm ->
    Q tt (set_heap (<[b:=Block al rq rm ∅]> (w_heap w)) w) ->
    runs (destroy (Ptr b 0) (Ptr b (length l))) w Q.
  Proof.
    intros Hb Hl HQ. eapply runs_destroy; [done|lia|done| |].
    - intros k Hk. apply map_seq_is_Some. lia.
    - intros live' Hl'. replace live' with (∅ : gmap nat V); [done|].
      apply map_eq. intros k. rewrite Hl', lookup_map_seq_0, lookup_empty.
      case_decide; [done|]. symmetry. apply lookup_ge_None. lia.
  Qed.

  (** ** Copying a range into raw storage: all or nothing *)

  Lemma runs_uninit_copy_loop fuel w bs bd src al rq rm l i (Q : _ -> W -> Prop) :
    bs <> bd -> w_err w = None ->
    w_heap w !! bs = Some src -> length l <= b_room src ->
    (forall k v, l !! k = Some v -> b_live src !! k = Some v) ->
    w_heap w !! bd = Some (Block al rq rm (map_seq 0 (take i l))) ->
    i <= length l -> length l <= rm -> length l - i < fuel ->
    (forall orc nc, Q (Ptr bd (length l))
       (World (<[bd:=Block al rq rm (map_seq 0 l)]> (w_heap w)) orc None (w_allocs w) nc)) ->
    (forall p orc code nc, Q p
       (World (<[bd:=Block al rq rm ∅]> (w_heap w)) orc (Some (EElem code)) (w_allocs w) nc)) ->
    runs (uninitialised_copy_loop cf fuel (Ptr bs i) (Ptr bs (length l)) (Ptr bd 0) (Ptr bd i)) w Q.
  Proof.
    intros Hne. revert w i Q. induction fuel as [|fuel IH];
      intros w i Q He Hbs Hroom Hsrc Hbd Hi Hrm Hfuel Hok Hfail; [lia|].
    simpl. case_decide as Heq.
    - simplify_eq. apply runs_ret. rewrite take_ge in Hbd by lia.
      specialize (Hok (w_orc w) (w_ctors w)). rewrite insert_id in Hok by done.
      by destruct w; simpl in *; subst.
    - assert (i < length l) by (assert (i <> length l) by congruence; lia).
      destruct (lookup_lt_is_Some_2 l i) as [v Hv]; [done|].
      assert (Htl : length (take i l) = i) by (rewrite take_length; lia).
      rbind. eapply (runs_construct_at _ _ _ (ARef (Ptr bs i)) v).
      + done.
      + simpl. unfold read, load_block, load, bind, get_heap. rewrite Hbs. simpl.
        rewrite decide_True by lia. by rewrite (Hsrc _ _ Hv).
      + done.
      + simpl; lia.
      + simpl. rewrite lookup_map_seq_0. apply lookup_ge_None. lia.
      + intros orc. simpl. rbind. apply runs_has_err; simpl.
        rbind. eapply runs_padd; [simpl; by rewrite lookup_insert_ne|simpl; lia|].
        rbind. eapply runs_padd; [simpl; by rewrite lookup_insert|simpl; lia|].
        replace (i + 1) with (S i) by lia.
        eapply IH; simpl.
        * done.
        * by rewrite lookup_insert_ne.
        * done.
        * done.
        * rewrite lookup_insert. do 2 f_equal.
          erewrite take_S_r by done. rewrite map_seq_snoc. by rewrite Htl.
        * lia.
        * lia.
        * lia.
        * intros. rewrite insert_insert. apply Hok.
        * intros. rewrite insert_insert. apply Hfail.
      + intros orc code _. simpl. rbind. apply runs_has_err; simpl. rbind.
        replace (Ptr bd i) with (Ptr bd (length (take i l))) by (by rewrite Htl).
        eapply runs_destroy_all; [done|lia|]. simpl. apply runs_ret. apply Hfail.
  Qed.

  Lemma runs_uninit_copy w bs bd src al rq rm l (Q : _ -> W -> Prop) :
    bs <> bd -> w_err w = None ->
    w_heap w !! bs = Some src -> length l <= b_room src ->
    (forall k v, l !! k = Some v -> b_live src !! k = Some v) ->
    w_heap w !! bd = Some (Block al rq rm ∅) -> length l <= rm ->
    (forall orc nc, Q (Ptr bd (length l))
       (World (<[bd:=Block al rq rm (map_seq 0 l)]> (w_heap w)) orc None (w_allocs w) nc)) ->
    (forall p orc code nc, Q p
       (World (<[bd:=Block al rq rm ∅]> (w_heap w)) orc (Some (EElem code)) (w_allocs w) nc)) ->
    runs (uninitialised_copy cf (Ptr bs 0) (Ptr bs (length l)) (Ptr bd 0)) w Q.
  Proof.
    intros. unfold uninitialised_copy. eapply runs_uninit_copy_loop; try done; simpl; lia.
  Qed.

  (** ** Observers *)

  Lemma owns_size v l cap hv w (Q : _ -> W -> Prop) :
    vec_owns cf v l cap hv -> Q (length l) w -> runs (vec_size v) w Q.
  Proof.
    intros [(Hs & Hf & He & -> & -> & ->)|(b & Hs & Hf & He & Hle & Hc & ->)] HQ;
      unfold vec_size; rewrite Hs, Hf.
    - by apply runs_ret.
    - apply runs_pdiff; [lia|]. by rewrite Nat.sub_0_r.
  Qed.
  Lemma owns_capacity v l cap hv w (Q : _ -> W -> Prop) :
    vec_owns cf v l cap hv -> Q cap w -> runs (vec_capacity v) w Q.
  Proof.
    intros [(Hs & Hf & He & -> & -> & ->)|(b & Hs & Hf & He & Hle & Hc & ->)] HQ;
      unfold vec_capacity; rewrite Hs, He.
    - by apply runs_ret.
    - apply runs_pdiff; [lia|]. by rewrite Nat.sub_0_r.
  Qed.

  Lemma owns_le v l cap hv : vec_owns cf v l cap hv -> length l <= cap.
  Proof. intros [(?&?&?&->&->&?)|(b&?&?&?&?&?)]; simpl; lia. Qed.
  Lemma owns_cap_ok v l cap hv : cfg_ok cf -> vec_owns cf v l cap hv -> cap_ok cf cap.
  Proof.
    intros Hcf [(?&?&?&->&->&?)|(b&?&?&?&?&?&?)]; [|done]. unfold cap_ok. lia.
  Qed.

  (** ** Allocation *)

  Lemma runs_allocate w al n (Q : _ -> W -> Prop) :
    cfg_ok cf -> (N.of_nat n * c_sizeof cf < 2^64)%N ->
    (forall b orc, w_heap w !! b = None -> cap_ok cf n ->
       Q (Ptr b 0) (World (<[b:=Block al n n ∅]> (w_heap w)) orc (w_err w) (S (w_allocs w)) (w_ctors w))) ->
    (forall orc, Q Null (World (w_heap w) orc (Some EBadAlloc) (S (w_allocs w)) (w_ctors w))) ->
    runs (allocate cf al n) w Q.
  Proof.
    intros [[Hs1 Hs2] Hmb] Hn Hok Hfail. unfold allocate, wrap64. rewrite N.mod_small by done.
    case_decide as Hmax.
    - eapply runs_eq; [reflexivity|]. apply Hfail.
    - rewrite N.div_mul by lia. rewrite Nat2N.id.
      rbind. apply runs_alloc_cell.
      + intros a o Ha. apply runs_ret. apply Hok; [done|]. unfold cap_ok. lia.
      + intros o. apply runs_ret. apply Hfail.
  Qed.

  (** ** do_reserve: strong guarantee *)

  Lemma heap_is_insert_fresh (h hf hv : gmap addr (vblock V)) b blk :
    h = hv ∪ hf -> hv ##ₘ hf -> h !! b = None ->
    <[b:=blk]> h = {[b:=blk]} ∪ (hv ∪ hf) /\ hf !! b = None /\ hv !! b = None.
  Proof.
    intros -> Hd Hb. apply lookup_union_None in Hb as [??].
    split; [|done]. by rewrite insert_union_singleton_l.
  Qed.

  Lemma runs_do_reserve v l cap hv hf n w (Q : _ -> W -> Prop) :
    cfg_ok cf -> vec_owns cf v l cap hv -> heap_is w hv hf -> w_err w = None ->
    length l <= n -> (N.of_nat n * c_sizeof cf < 2^64)%N ->
    (forall v' b hv' w', m_start v' = Ptr b 0 -> m_allocator v' = m_allocator v ->
       w_heap w !! b = None ->
       vec_owns cf v' l n hv' -> heap_is w' hv' hf -> w_err w' = None ->
       w_allocs w' = S (w_allocs w) -> Q v' w') ->
    (forall w' e, w_heap w' = w_heap w -> w_err w' = Some e -> w_allocs w' = S (w_allocs w) -> Q v w') ->
    runs (do_reserve cf v n) w Q.
  Proof.
    intros Hcf Ho [Hw Hd] He Hn Hbytes Hok Hfail. unfold do_reserve.
    rbind. apply runs_allocate; [done..| |].
    2:{ intros orc. rbind. apply runs_has_err; simpl. apply runs_ret.
        eapply Hfail; simpl; done. }
    intros bd orc Hbd Hcn. rbind. apply runs_has_err; simpl. rewrite He.
    destruct Ho as [(Hs & Hf & Hen & -> & -> & ->)|(bs & Hs & Hf & Hen & Hle & Hc & ->)];
      rewrite Hs, Hf.
    - (* no storage yet *)
      rbind. unfold uninitialised_copy; simpl. apply runs_ret.
      rbind. apply runs_has_err; simpl.
      rbind. unfold vec_size; rewrite Hs, Hf; simpl. apply runs_pdiff_null.
      rbind. apply runs_destroy_null.
      rbind. rewrite Hen; simpl. apply runs_pdiff_null.
      rbind. apply runs_deallocate_null.
      rbind. eapply runs_padd; [simpl; by rewrite lookup_insert|simpl; lia|].
      rbind. eapply runs_padd; [simpl; by rewrite lookup_insert|simpl; lia|].
      rbind. apply runs_deallocate_null. apply runs_ret.
      eapply (Hok _ bd {[bd := Block (m_allocator v) n n (map_seq 0 [])]}); simpl; try done.
      + right. exists bd. simpl. repeat split; try done.
      + split; simpl.
        * rewrite Hw, (left_id_L ∅ (∪)). by rewrite insert_union_singleton_l.
        * rewrite Hw, (left_id_L ∅ (∪)) in Hbd. by apply map_disjoint_singleton_l.
    - rewrite map_disjoint_singleton_l in Hd.
      rewrite Hw, <-insert_union_singleton_l in Hbd.
      apply lookup_insert_None in Hbd as [Hbd Hne].
      rbind. eapply runs_uninit_copy with (l := l) (bs := bs); simpl.
      + done.
      + done.
      + rewrite lookup_insert_ne by done. rewrite Hw, <-insert_union_singleton_l. by rewrite lookup_insert.
      + simpl. done.
      + simpl. intros k x Hk. by rewrite lookup_map_seq_0.
      + by rewrite lookup_insert.
      + lia.
      + intros orc' nc. simpl. rewrite insert_insert.
        rbind. apply runs_has_err; simpl.
        rbind. unfold vec_size; rewrite Hs, Hf. apply runs_pdiff; [lia|]. rewrite Nat.sub_0_r.
        rbind. eapply runs_destroy_all; simpl.
        { rewrite lookup_insert_ne by done. rewrite Hw, <-insert_union_singleton_l. by rewrite lookup_insert. }
        { done. }
        rbind. rewrite Hen. apply runs_pdiff; [lia|]. rewrite Nat.sub_0_r.
        rbind. eapply runs_deallocate; simpl; [by rewrite lookup_insert|].
        rewrite delete_insert_delete, delete_insert_ne by done.
        rewrite Hw, <-insert_union_singleton_l, delete_insert by done.
        rbind. eapply runs_padd; [simpl; by rewrite lookup_insert|simpl; lia|].
        rbind. eapply runs_padd; [simpl; by rewrite lookup_insert|simpl; lia|].
        rbind. apply runs_deallocate_null. apply runs_ret.
        eapply (Hok _ bd {[bd := Block (m_allocator v) n n (map_seq 0 l)]}); simpl; try done.
        * rewrite Hw, <-insert_union_singleton_l. by rewrite lookup_insert_ne by done.
        * right. exists bd. simpl. repeat split; try done. 
        * split; simpl.
          -- by rewrite insert_union_singleton_l.
          -- by apply map_disjoint_singleton_l.
      + intros p orc' code nc. simpl. rbind. apply runs_has_err; simpl.
        rbind. eapply runs_deallocate; simpl; [by rewrite lookup_insert|].
        apply runs_ret. eapply Hfail; simpl; try done.
        rewrite insert_insert, delete_insert; [done|].
        rewrite Hw, <-insert_union_singleton_l. by rewrite lookup_insert_ne by done.
  Qed.

  (** ** Growth *)

  Lemma sz_le n : sz n <= n.
  Proof.
    unfold sz, wrap64. assert (N.of_nat n mod 2^64 <= N.of_nat n)%N by (apply N.mod_le; lia). lia.
  Qed.
  Lemma sz_fits n : fits n -> sz n = n.
  Proof. unfold sz, wrap64, fits. intros. rewrite N.mod_small by done. lia. Qed.

  (** The capacity asked for by grow (vector.hpp:801-805). *)
  Definition grow_cap (cap required : nat) : nat :=
    let n0 := Nat.div2 (sz (sz (cap + 1) * 3)) in
    if decide (n0 < required) then required else n0.

  Lemma grow_cap_ge cap required : required <= grow_cap cap required.
  Proof. unfold grow_cap. case_decide; lia. Qed.

  Lemma div2_le n : 2 * Nat.div2 n <= n.
  Proof. rewrite Nat.div2_div. pose proof (Nat.div_mod_eq n 2). lia. Qed.
  Lemma div2_ge n : n <= 2 * Nat.div2 n + 1.
  Proof. rewrite Nat.div2_div. pose proof (Nat.div_mod_eq n 2). pose proof (Nat.mod_upper_bound n 2). lia. Qed.

  Lemma grow_cap_bytes cap required :
    cfg_ok cf -> cap_ok cf cap -> (N.of_nat required * c_sizeof cf < 2^64)%N ->
    (N.of_nat (grow_cap cap required) * c_sizeof cf < 2^64)%N.
  Proof.
    intros [[Hs1 Hs2] Hmax] Hcap Hreq. unfold grow_cap. case_decide; [done|].
    unfold cap_ok in Hcap.
    assert (2 * Nat.div2 (sz (sz (cap + 1) * 3)) <= 3 * (cap + 1)).
    { pose proof (div2_le (sz (sz (cap + 1) * 3))).
      pose proof (sz_le (sz (cap + 1) * 3)). pose proof (sz_le (cap + 1)). lia. }
    set (n0 := Nat.div2 _) in *. clearbody n0.
    assert (2 * (N.of_nat n0 * c_sizeof cf) <= 3 * (N.of_nat cap * c_sizeof cf) + 3 * c_sizeof cf)%N by nia.
    lia.
  Qed.

  Lemma grow_cap_gt cap required :
    cap < required \/ fits (3 * (cap + 1)) -> cap < grow_cap cap required.
  Proof.
    intros H. unfold grow_cap. case_decide as Hd.
    - destruct H as [H|H]; [done|].
      assert (cap < Nat.div2 (sz (sz (cap + 1) * 3))); [|lia].
      rewrite (sz_fits (cap + 1)) by (unfold fits in *; lia).
      rewrite sz_fits by (unfold fits in *; lia).
      pose proof (div2_ge ((cap + 1) * 3)). lia.
    - destruct H as [H|H]; [lia|].
      rewrite (sz_fits (cap + 1)) by (unfold fits in *; lia).
      rewrite sz_fits by (unfold fits in *; lia).
      pose proof (div2_ge ((cap + 1) * 3)). lia.
  Qed.

  Lemma bytes_fits n : cfg_ok cf -> (N.of_nat n * c_sizeof cf < 2^64)%N -> fits n.
  Proof. intros [[??] ?] ?. unfold fits. nia. Qed.
  Lemma cap_ok_bytes n : cfg_ok cf -> cap_ok cf n -> (N.of_nat n * c_sizeof cf < 2^64)%N.
  Proof. intros [_ Hm]. unfold cap_ok. lia. Qed.

  Lemma runs_reserve v l cap hv hf n w (Q : _ -> W -> Prop) :
    cfg_ok cf -> vec_owns cf v l cap hv -> heap_is w hv hf -> w_err w = None ->
    (N.of_nat n * c_sizeof cf < 2^64)%N ->
    (n <= cap -> Q v w) ->
    (forall v' b hv' w', cap < n -> m_start v' = Ptr b 0 -> m_allocator v' = m_allocator v ->
       w_heap w !! b = None ->
       vec_owns cf v' l n hv' -> heap_is w' hv' hf -> w_err w' = None ->
       w_allocs w' = S (w_allocs w) -> Q v' w') ->
    (forall w' e, cap < n -> w_heap w' = w_heap w -> w_err w' = Some e -> w_allocs w' = S (w_allocs w) -> Q v w') ->
    runs (vec_reserve cf v n) w Q.
  Proof.
    intros Hcf Ho Hh He Hb Hsame Hok Hfail. unfold vec_reserve.
    rbind. eapply owns_capacity; [done|]. case_decide as Hle.
    - apply runs_ret. by apply Hsame.
    - assert (cap < n) by lia. rewrite decide_False.
      + pose proof (owns_le _ _ _ _ Ho).
        eapply runs_do_reserve; try done; [lia| |]; intros; eauto.
      + pose proof (bytes_fits n Hcf Hb). unfold fits, size_max in *. lia.
  Qed.

  Lemma runs_grow v l cap hv hf required w (Q : _ -> W -> Prop) :
    cfg_ok cf -> vec_owns cf v l cap hv -> heap_is w hv hf -> w_err w = None ->
    (N.of_nat required * c_sizeof cf < 2^64)%N ->
    cap < required \/ fits (3 * (cap + 1)) ->
    (forall v' b hv' w', m_start v' = Ptr b 0 -> m_allocator v' = m_allocator v ->
       w_heap w !! b = None ->
       vec_owns cf v' l (grow_cap cap required) hv' -> heap_is w' hv' hf -> w_err w' = None ->
       w_allocs w' = S (w_allocs w) -> Q v' w') ->
    (forall w' e, w_heap w' = w_heap w -> w_err w' = Some e -> w_allocs w' = S (w_allocs w) -> Q v w') ->
    runs (grow cf v required) w Q.
  Proof.
    intros Hcf Ho Hh He Hb Hgt Hok Hfail. unfold grow.
    pose proof (owns_cap_ok _ _ _ _ Hcf Ho) as Hco.
    pose proof (grow_cap_gt cap required Hgt) as Hg.
    rbind. eapply owns_capacity; [done|]. fold (grow_cap cap required).
    rbind. apply runs_assert; [by apply bool_decide_eq_true|].
    eapply runs_reserve; try done.
    - by apply grow_cap_bytes.
    - lia.
    - intros. eauto.
    - intros. eauto.
  Qed.

  Lemma runs_shrink v l cap hv hf w (Q : _ -> W -> Prop) :
    cfg_ok cf -> vec_owns cf v l cap hv -> heap_is w hv hf -> w_err w = None ->
    (length l = cap -> Q v w) ->
    (forall v' b hv' w', length l < cap -> m_start v' = Ptr b 0 -> m_allocator v' = m_allocator v ->
       w_heap w !! b = None ->
       vec_owns cf v' l (length l) hv' -> heap_is w' hv' hf -> w_err w' = None ->
       w_allocs w' = S (w_allocs w) -> Q v' w') ->
    (forall w' e, length l < cap -> w_heap w' = w_heap w -> w_err w' = Some e -> w_allocs w' = S (w_allocs w) -> Q v w') ->
    runs (vec_shrink_to_fit cf v) w Q.
  Proof.
    intros Hcf Ho Hh He Hsame Hok Hfail. unfold vec_shrink_to_fit.
    pose proof (owns_cap_ok _ _ _ _ Hcf Ho) as Hco. pose proof (owns_le _ _ _ _ Ho).
    rbind. eapply owns_capacity; [done|]. rbind. eapply owns_size; [done|].
    case_decide.
    - eapply runs_do_reserve; try done; eauto.
      apply cap_ok_bytes; [done|]. unfold cap_ok in *. destruct Hcf as [[??]?]. nia.
    - apply runs_ret. apply Hsame. lia.
  Qed.

  (** ** Destruction *)

  Lemma runs_vec_destroy v l cap hv hf w (Q : _ -> W -> Prop) :
    vec_owns cf v l cap hv -> heap_is w hv hf ->
    Q tt (set_heap hf w) -> runs (vec_destroy v) w Q.
  Proof.
    intros Ho [Hw Hd] HQ. unfold vec_destroy.
    destruct Ho as [(Hs & Hf & Hen & -> & -> & ->)|(bs & Hs & Hf & Hen & Hle & Hc & ->)];
      rewrite Hs, Hf, Hen.
    - rbind. apply runs_destroy_null. rbind. apply runs_pdiff_null. apply runs_deallocate_null.
      rewrite (set_heap_id w hf) in HQ; [done|]. by rewrite Hw, (left_id_L ∅ (∪)).
    - rewrite map_disjoint_singleton_l in Hd. rewrite <-insert_union_singleton_l in Hw.
      rbind. eapply runs_destroy_all; [by rewrite Hw, lookup_insert|done|].
      rbind. apply runs_pdiff; [lia|]. rewrite Nat.sub_0_r.
      eapply runs_deallocate; simpl; [by rewrite lookup_insert|].
      rewrite Hw, insert_insert, delete_insert by done. done.
  Qed.

  Lemma runs_vec_clear v l cap hv hf w (Q : _ -> W -> Prop) :
    vec_owns cf v l cap hv -> heap_is w hv hf ->
    (forall v' hv' w', vec_owns cf v' [] cap hv' -> heap_is w' hv' hf -> w_err w' = w_err w ->
       m_start v' = m_start v -> m_allocator v' = m_allocator v -> w_allocs w' = w_allocs w -> Q v' w') ->
    runs (vec_clear v) w Q.
  Proof.
    intros Ho [Hw Hd] HQ. unfold vec_clear.
    destruct Ho as [(Hs & Hf & Hen & -> & -> & ->)|(bs & Hs & Hf & Hen & Hle & Hc & ->)];
      rewrite Hs, Hf, Hen.
    - rbind. apply runs_destroy_null. apply runs_ret. eapply HQ; try done. by left.
    - rewrite map_disjoint_singleton_l in Hd. rewrite <-insert_union_singleton_l in Hw.
      rbind. eapply runs_destroy_all; [by rewrite Hw, lookup_insert|done|]. apply runs_ret.
      eapply (HQ _ {[bs := Block (m_allocator v) cap cap (map_seq 0 [])]}); simpl; try done.
      + right. exists bs. simpl. repeat split; try done. lia.
      + split; simpl.
        * by rewrite Hw, insert_insert, insert_union_singleton_l.
        * by rewrite map_disjoint_singleton_l.
  Qed.

  (** ** Insertion *)

  (** Shape of the live objects while elements are being shifted: slot [j] is
      raw, the elements from index [j] on are one slot higher. *)
  Definition pat (l : list V) (j : nat) (live : gmap nat V) : Prop :=
    forall k, live !! k = if decide (k < j) then l !! k else if decide (k = j) then None else l !! (k - 1).

  Lemma pat_end l live : pat l (length l) live <-> live = map_seq 0 l.
  Proof.
    split.
    - intros Hp. apply map_seq_live. intros k. rewrite Hp. repeat case_decide; try done.
      + subst. symmetry. apply lookup_ge_None. lia.
      + trans (@None V); [|symmetry]; apply lookup_ge_None; lia.
    - intros -> k. rewrite lookup_map_seq_0. repeat case_decide; try done.
      + subst. apply lookup_ge_None. lia.
      + trans (@None V); [|symmetry]; apply lookup_ge_None; lia.
  Qed.

  Lemma pat_insert l i live x : i <= length l -> pat l i live ->
    <[i:=x]> live = map_seq 0 (take i l ++ x :: drop i l).
  Proof.
    intros Hi Hp. apply map_seq_live. intros k.
    destruct (decide (k = i)) as [->|Hne].
    - rewrite lookup_insert. rewrite lookup_app_r; rewrite take_length; [|lia].
      replace (i - i `min` length l) with 0 by lia. done.
    - rewrite lookup_insert_ne by done. rewrite Hp. case_decide.
      + rewrite lookup_app_l by (rewrite take_length; lia). by rewrite lookup_take.
      + rewrite decide_False by done. rewrite lookup_app_r; rewrite take_length; [|lia].
        replace (k - i `min` length l) with (S (k - 1 - i)) by lia. simpl.
        rewrite lookup_drop. f_equal. lia.
  Qed.

  Lemma runs_shift_loop fuel w b al rq rm l i j live (Q : _ -> W -> Prop) :
    w_err w = None -> w_heap w !! b = Some (Block al rq rm live) -> pat l j live ->
    i <= j -> j <= length l -> length l < rm -> j - i < fuel ->
    (forall live' orc nc, pat l i live' ->
      Q true (World (<[b:=Block al rq rm live']> (w_heap w)) orc None (w_allocs w) nc)) ->
    (forall live' j' orc code nc, c_kind cf <> Nothrow -> i < j' <= j -> pat l j' live' ->
      Q false (World (<[b:=Block al rq rm live']> (w_heap w)) orc (Some (EElem code)) (w_allocs w) nc)) ->
    runs (shift_loop cf fuel (Ptr b j) (Ptr b i)) w Q.
  Proof.
    revert w j live Q. induction fuel as [|fuel IH];
      intros w j live Q He Hb Hp Hij Hj Hrm Hfuel Hok Hfail; [lia|].
    simpl. case_decide as Heq.
    - simplify_eq. apply runs_ret. specialize (Hok live (w_orc w) (w_ctors w) Hp).
      rewrite insert_id in Hok by done. destruct w; simpl in *; by subst.
    - assert (i < j) by (assert (i <> j) by congruence; lia).
      destruct j as [|j]; [lia|].
      rbind. apply runs_ret.
      destruct (lookup_lt_is_Some_2 l j) as [v Hv]; [lia|].
      assert (Hlj : live !! j = Some v) by (rewrite Hp, decide_True by lia; done).
      rbind. eapply (runs_construct_at _ _ _ (ARef (Ptr b j)) v).
      + done.
      + simpl. unfold read, load_block, load, bind, get_heap. rewrite Hb. simpl.
        rewrite decide_True by lia. by rewrite Hlj.
      + done.
      + simpl; lia.
      + simpl. rewrite Hp. rewrite decide_False, decide_True by lia. done.
      + intros orc. simpl. rbind. apply runs_has_err; simpl.
        rbind. eapply runs_destroy; simpl.
        * by rewrite lookup_insert.
        * lia.
        * lia.
        * intros k Hk. replace k with j by lia. rewrite lookup_insert_ne by lia. eauto.
        * intros live' Hl'. rewrite insert_insert. rbind. apply runs_ret.
          eapply IH; simpl.
          -- done.
          -- by rewrite lookup_insert.
          -- intros k. rewrite Hl'. destruct (decide (k = j)) as [->|].
             { repeat case_decide; try lia; done. }
             rewrite decide_False by lia.
             destruct (decide (k = S j)) as [->|].
             { rewrite lookup_insert. rewrite !decide_False by lia. replace (S j - 1) with j by lia. done. }
             rewrite lookup_insert_ne by lia. rewrite Hp. repeat case_decide; try lia; done.
          -- lia.
          -- lia.
          -- lia.
          -- lia.
          -- intros. rewrite insert_insert. by apply Hok.
          -- intros. rewrite insert_insert. eapply Hfail; [done| |done]. lia.
      + intros orc code Hk. simpl. rbind. apply runs_has_err; simpl. apply runs_ret.
        specialize (Hfail live (S j) orc code (S (w_ctors w))).
        rewrite insert_id in Hfail by done. apply Hfail; [done|lia|done].
  Qed.

  Lemma arg_outside_val hv hf a x w :
    arg_outside hf a x -> w_heap w = hv ∪ hf -> hv ##ₘ hf -> arg_val w a x.
  Proof.
    intros Ha Hw Hd. destruct a as [y|[|b o]]; simpl in *; [done..|].
    destruct Ha as (blk & Hb & Ho & Hl). unfold read, load_block, load, bind, get_heap.
    rewrite Hw. rewrite (lookup_union_Some_r _ _ _ _ Hd Hb). simpl. rewrite decide_True by done. by rewrite Hl.
  Qed.

  (** A vector damaged by an element construction that failed while its
      elements were being shifted: slot [j] inside [begin,end) is raw, and the
      object at slot [length l] (that is, end()) is alive. *)
  Definition vec_broken (v : vec_obj) (l : list V) (i : nat) (hf : gmap addr (vblock V)) w : Prop :=
    exists b cap j live,
      m_start v = Ptr b 0 /\ m_finish v = Ptr b (length l) /\ m_end_of_storage v = Ptr b cap /\
      i <= j < length l /\ length l < cap /\ pat l j live /\
      heap_is w {[ b := Block (m_allocator v) cap cap live ]} hf.

  Definition insert_post v (l : list V) cap hf i x w (r : ptr * vec_obj) w' : Prop :=
    m_allocator r.2 = m_allocator v /\
    w_allocs w' = w_allocs w + (if decide (cap = length l) then 1 else 0) /\
    (cap <> length l -> m_start r.2 = m_start v /\ m_end_of_storage r.2 = m_end_of_storage v) /\
    let cap' := if decide (cap = length l) then grow_cap cap (S cap) else cap in
    ((w_err w' = None /\ r.1 = vec_pos r.2 i /\
      exists hv', vec_owns cf r.2 (take i l ++ x :: drop i l) cap' hv' /\ heap_is w' hv' hf)
     \/
     (exists e, w_err w' = Some e /\ r.1 = vec_end r.2 /\
      (cap <> length l -> c_kind cf <> Nothrow /\ exists code, e = EElem code) /\
      ((exists cap'' hv', vec_owns cf r.2 l cap'' hv' /\ heap_is w' hv' hf)
       \/ (i < length l /\ c_kind cf <> Nothrow /\ (cap = length l -> m_start r.2 <> m_start v) /\
           exists code, e = EElem code /\ vec_broken r.2 l i hf w')))).

  (** After growth: there is room. *)
  Lemma runs_insert_room v b l cap hf i a x w (Q : _ -> W -> Prop) :
    m_start v = Ptr b 0 -> m_finish v = Ptr b (length l) -> m_end_of_storage v = Ptr b cap ->
    length l < cap -> cap_ok cf cap -> i <= length l ->
    heap_is w {[b := Block (m_allocator v) cap cap (map_seq 0 l)]} hf -> w_err w = None ->
    (forall w' live', pat l i live' ->
       w_heap w' = <[b := Block (m_allocator v) cap cap live']> hf -> arg_val w' a x) ->
    (forall r w',
      m_allocator r.2 = m_allocator v -> m_start r.2 = m_start v -> m_end_of_storage r.2 = m_end_of_storage v -> w_allocs w' = w_allocs w ->
      ((w_err w' = None /\ r.1 = Ptr b i /\
        exists hv', vec_owns cf r.2 (take i l ++ x :: drop i l) cap hv' /\ heap_is w' hv' hf)
       \/
       (exists e, w_err w' = Some e /\ r.1 = vec_end r.2 /\
        (c_kind cf <> Nothrow /\ exists code, e = EElem code) /\
        ((exists hv', vec_owns cf r.2 l cap hv' /\ heap_is w' hv' hf)
         \/ (i < length l /\ c_kind cf <> Nothrow /\ exists code, e = EElem code /\ vec_broken r.2 l i hf w')))) -> Q r w') ->
    runs (let! cap := vec_capacity v in
          let! n := vec_size v in
          do! assert_ cf (bool_decide (n < cap)) in
          let last := m_finish v in
          let! first := padd (m_start v) i in
          let! ok := shift_loop cf (S (poff last)) last first in
          if negb ok then ret (vec_end v, v) else
          do! construct_at cf first a in
          let! e := has_err in
          if (e : bool) then ret (vec_end v, v) else
          let! fin := padd (m_finish v) 1 in
          ret (first, Vec (m_allocator v) (m_start v) fin (m_end_of_storage v))) w Q.
  Proof.
    intros Hs Hf Hen Hlt Hc Hi [Hw Hd] He Ha HQ.
    rewrite map_disjoint_singleton_l in Hd. rewrite <-insert_union_singleton_l in Hw.
    rbind. unfold vec_capacity. rewrite Hen, Hs. apply runs_pdiff; [lia|]. rewrite Nat.sub_0_r.
    rbind. unfold vec_size. rewrite Hf, Hs. apply runs_pdiff; [lia|]. rewrite Nat.sub_0_r.
    rbind. apply runs_assert; [by apply bool_decide_eq_true|]. cbv zeta.
    rbind. eapply runs_padd; [by rewrite Hw, lookup_insert|simpl; lia|]. rewrite Nat.add_0_l.
    rbind. eapply runs_shift_loop with (l := l).
    - done.
    - by rewrite Hw, lookup_insert.
    - by apply pat_end.
    - done.
    - done.
    - done.
    - simpl. lia.
    - intros live' orc nc Hp. simpl. rewrite Hw, insert_insert.
      rbind. eapply runs_construct_at with (v := x); simpl.
      + done.
      + by eapply Ha.
      + by rewrite lookup_insert.
      + simpl. lia.
      + simpl. rewrite Hp. by rewrite decide_False, decide_True by lia.
      + intros orc'. simpl. rbind. apply runs_has_err; simpl. rewrite insert_insert.
        rbind. eapply runs_padd; [simpl; by rewrite lookup_insert|simpl; lia|]. apply runs_ret.
        apply HQ; simpl; try done. left. split; [done|]. split; [done|].
        erewrite pat_insert by done.
        eexists. split.
        * right. exists b. simpl. split; [done|]. 
          assert (length (take i l ++ x :: drop i l) = length l + 1) as ->.
          { rewrite app_length; simpl. rewrite take_length, drop_length. lia. }
          repeat split; try done. lia.
        * split; simpl; [by rewrite insert_union_singleton_l|by rewrite map_disjoint_singleton_l].
      + intros orc' code Hk. simpl. rbind. apply runs_has_err; simpl. apply runs_ret.
        apply HQ; simpl; try done. right. eexists. split; [done|]. split; [done|]. split; [by eauto|].
        destruct (decide (i = length l)) as [->|].
        * left. apply pat_end in Hp as ->. eexists. split; [by right; exists b; repeat split; try done; lia|].
          split; simpl; [by rewrite insert_union_singleton_l|by rewrite map_disjoint_singleton_l].
        * right. split; [lia|]. split; [done|]. eexists. split; [done|].
          exists b, cap, i, live'. repeat split; try done; try lia; simpl;
            [by rewrite insert_union_singleton_l|by rewrite map_disjoint_singleton_l].
    - intros live' j' orc code nc Hk Hj Hp. simpl. rewrite Hw, insert_insert. apply runs_ret.
      apply HQ; simpl; try done. right. eexists. split; [done|]. split; [done|]. split; [by eauto|].
      destruct (decide (j' = length l)) as [->|].
      + left. apply pat_end in Hp as ->. eexists. split; [by right; exists b; repeat split; try done; lia|].
        split; simpl; [by rewrite insert_union_singleton_l|by rewrite map_disjoint_singleton_l].
      + right. split; [lia|]. split; [done|]. eexists. split; [done|].
        exists b, cap, j', live'. repeat split; try done; try lia; simpl;
          [by rewrite insert_union_singleton_l|by rewrite map_disjoint_singleton_l].
  Qed.
End proofs.
