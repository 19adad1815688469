(** * Histories over several vectors: proofs *)
From Verif Require Export VecHist VecRowSpec.
From Verif Require Import VecAlloc.

Section row.
  Context {V : Type} (cf : cfg V).
  Notation W := (world (vblock V)).
  Notation H := (gmap addr (vblock V)).
  Notation MV := (M (vblock V)).
  Implicit Types (w : W) (hv hf : H).

  Lemma row_length vs ls hv : row_own cf vs ls hv -> length vs = length ls.
  Proof.
    revert ls hv. induction vs as [|v vs IH]; intros [|l ls] hv; simpl; try done. intros (h1 & h2 & _ & Hr & _).
    f_equal. by eapply IH.
  Qed.
  Lemma row_lookup vs ls hv i v : row_own cf vs ls hv -> vs !! i = Some v -> exists l, ls !! i = Some l.
  Proof. intros Hr Hi. apply lookup_lt_is_Some. rewrite <-(row_length _ _ _ Hr). by eapply lookup_lt_Some. Qed.
  Lemma row_none vs ls hv i : row_own cf vs ls hv -> vs !! i = None -> ls !! i = None.
  Proof. intros Hr Hi. apply lookup_ge_None. rewrite <-(row_length _ _ _ Hr). by apply lookup_ge_None. Qed.

  Lemma row_get vs ls hv i v l : row_own cf vs ls hv -> vs !! i = Some v -> ls !! i = Some l ->
    exists h1 h2, own1 cf v l h1 /\ h1 ##ₘ h2 /\ hv = h1 ∪ h2 /\ row_own cf (delete i vs) (delete i ls) h2.
  Proof.
    revert ls hv i. induction vs as [|u vs IH]; intros [|m ls] hv i; try done. intros (h1 & h2 & H1 & Hr & Hd & ->) Hi Hl.
    destruct i as [|i]; simpl in *.
    - simplify_eq. by exists h1, h2.
    - destruct (IH _ _ _ Hr Hi Hl) as (h3 & h4 & H3 & Hd3 & -> & Hr'). apply map_disjoint_union_r in Hd as [Hd1 Hd2].
      exists h3, (h1 ∪ h4). split; [done|]. split; [apply map_disjoint_union_r; split; [done|done]|]. split.
      + rewrite !(assoc_L (∪)). f_equal. by apply map_union_comm.
      + exists h1, h4. split_and!; done.
  Qed.
  Lemma row_put vs ls i v l h1 h2 : i < length vs -> row_own cf (delete i vs) (delete i ls) h2 -> length vs = length ls ->
    own1 cf v l h1 -> h1 ##ₘ h2 -> row_own cf (<[ i := v ]> vs) (<[ i := l ]> ls) (h1 ∪ h2).
  Proof.
    revert ls i h2. induction vs as [|u vs IH]; intros [|m ls] i h2; simpl; try (intros; lia). intros Hi Hr Hlen H1 Hd.
    destruct i as [|i]; simpl in *.
    - by exists h1, h2.
    - destruct Hr as (h3 & h4 & H3 & Hr & Hd3 & ->). apply map_disjoint_union_r in Hd as [Hd1 Hd2].
      exists h3, (h1 ∪ h4). split; [done|]. split; [apply IH; [lia|done|lia|done|done]|]. split.
      + apply map_disjoint_union_r. split; [done|done].
      + rewrite !(assoc_L (∪)). f_equal. by apply map_union_comm.
  Qed.

  (** index of element [j] after deleting element [i] *)
  Definition skip (i j : nat) : nat := if decide (j < i) then j else j - 1.
  Lemma delete_lookup {A} (l : list A) i j : i <> j -> delete i l !! skip i j = l !! j.
  Proof.
    intros Hne. unfold skip. case_decide; [by apply lookup_delete_lt|]. rewrite lookup_delete_ge by lia. f_equal. lia.
  Qed.
  Lemma delete_insert_list {A} (l : list A) i j x : i <> j -> delete i (<[ j := x ]> l) = <[ skip i j := x ]> (delete i l).
  Proof.
    unfold skip. revert i j. induction l as [|y l IH]; intros [|i] [|j] Hne; simpl; try done.
    - by rewrite Nat.sub_0_r.
    - specialize (IH i j ltac:(lia)). case_decide; case_decide; try lia; simpl; [by rewrite IH|].
      rewrite IH. destruct j as [|j]; [lia|]. simpl. by rewrite Nat.sub_0_r.
  Qed.
  Lemma row_get2 vs ls hv i j v l o lo : row_own cf vs ls hv -> i <> j ->
    vs !! i = Some v -> ls !! i = Some l -> vs !! j = Some o -> ls !! j = Some lo ->
    exists h1 h2 h3, own1 cf v l h1 /\ own1 cf o lo h2 /\ h1 ##ₘ h2 ∪ h3 /\ h2 ##ₘ h3 /\ hv = h1 ∪ (h2 ∪ h3) /\
      (forall v' l' o' lo' h1' h2', own1 cf v' l' h1' -> own1 cf o' lo' h2' -> h2' ##ₘ h3 -> h1' ##ₘ h2' ∪ h3 ->
         row_own cf (<[ i := v' ]> (<[ j := o' ]> vs)) (<[ i := l' ]> (<[ j := lo' ]> ls)) (h1' ∪ (h2' ∪ h3))).
  Proof.
    intros Hr Hne Hv Hl Ho Hlo. pose proof (row_length _ _ _ Hr) as Hlen.
    destruct (row_get _ _ _ _ _ _ Hr Hv Hl) as (h1 & h4 & H1 & Hd1 & -> & Hr1).
    rewrite <-(delete_lookup vs i j Hne) in Ho. rewrite <-(delete_lookup ls i j Hne) in Hlo.
    pose proof (row_length _ _ _ Hr1) as Hlen1.
    destruct (row_get _ _ _ _ _ _ Hr1 Ho Hlo) as (h2 & h3 & H2 & Hd2 & -> & Hr2).
    exists h1, h2, h3. split_and!; try done. intros v' l' o' lo' h1' h2' H1' H2' Hd2' Hd1'. apply row_put; try done.
    - rewrite insert_length. by eapply lookup_lt_Some.
    - rewrite !delete_insert_list by done. apply row_put; try done. by eapply lookup_lt_Some.
    - by rewrite !insert_length.
  Qed.

  (** ** One call *)

  Definition rpost (op : rop V) vs ls hf (vs' : list vec_obj) w' : Prop :=
    exists ls' hv', row_own cf vs' ls' hv' /\ heap_is w' hv' hf /\ rop_spec op ls (w_err w') ls' /\
      length vs' = length vs /\ forall k, k ∉ rop_targets op -> vs' !! k = vs !! k.

  Lemma rpost_same op vs ls hv hf w' : row_own cf vs ls hv -> heap_is w' hv hf -> rop_spec op ls (w_err w') ls -> rpost op vs ls hf vs w'.
  Proof. intros Hr Hh Hs. by exists ls, hv. Qed.

  (** a call on [v_i] alone *)
  Lemma rpost_one op vs ls hf i l v' l' cap' h1' h2 w' :
    row_own cf (delete i vs) (delete i ls) h2 -> length vs = length ls -> ls !! i = Some l ->
    m_allocator v' = c_dflt cf -> vec_owns cf v' l' cap' h1' -> heap_is w' h1' (h2 ∪ hf) -> h2 ##ₘ hf ->
    rop_targets op = [i] -> rop_spec op ls (w_err w') (<[ i := l' ]> ls) ->
    rpost op vs ls hf (<[ i := v' ]> vs) w'.
  Proof.
    intros Hr Hlen Hl Ha Ho [Hh Hd] Hd2 Ht Hs. apply map_disjoint_union_r in Hd as [Hd1 Hd3].
    exists (<[ i := l' ]> ls), (h1' ∪ h2). split; [|split; [|split; [done|split]]].
    - apply row_put; try done; [rewrite Hlen; by eapply lookup_lt_Some|]. split; [done|]. by exists cap'.
    - split; [by rewrite Hh, (assoc_L (∪))|]. apply map_disjoint_union_l. done.
    - by rewrite insert_length.
    - intros k Hk. rewrite Ht in Hk. rewrite list_lookup_insert_ne; [done|]. intros ->. apply Hk. constructor.
  Qed.
  Lemma row_get_at vs ls hv hf i v w : row_own cf vs ls hv -> heap_is w hv hf -> vs !! i = Some v ->
    exists l cap h1 h2, ls !! i = Some l /\ m_allocator v = c_dflt cf /\ vec_owns cf v l cap h1 /\ heap_is w h1 (h2 ∪ hf) /\
      h2 ##ₘ hf /\ hv = h1 ∪ h2 /\ row_own cf (delete i vs) (delete i ls) h2.
  Proof.
    intros Hr [Hw Hd] Hi. destruct (row_lookup _ _ _ _ _ Hr Hi) as (l & Hl).
    destruct (row_get _ _ _ _ _ _ Hr Hi Hl) as (h1 & h2 & (Ha & cap & Ho) & Hd1 & -> & Hr').
    apply map_disjoint_union_l in Hd as [Hd2 Hd3]. exists l, cap, h1, h2. split_and!; try done.
    split; [by rewrite Hw, (assoc_L (∪))|]. by apply map_disjoint_union_r.
  Qed.
  Lemma row_there vs ls hv j o lo : row_own cf vs ls hv -> vs !! j = Some o -> ls !! j = Some lo ->
    exists capo ho, m_allocator o = c_dflt cf /\ vec_owns cf o lo capo ho /\ ho ⊆ hv.
  Proof.
    intros Hr Hj Hl. destruct (row_get _ _ _ _ _ _ Hr Hj Hl) as (h1 & h2 & (Ha & cap & Ho) & Hd & -> & _).
    exists cap, h1. split_and!; try done. apply map_union_subseteq_l.
  Qed.
  Lemma row_other vs ls h2 i j o lo : row_own cf (delete i vs) (delete i ls) h2 -> i <> j -> vs !! j = Some o -> ls !! j = Some lo ->
    exists capo ho, m_allocator o = c_dflt cf /\ vec_owns cf o lo capo ho /\ ho ⊆ h2.
  Proof. intros Hr Hne Hj Hl. eapply (row_there _ _ _ (skip i j) _ _ Hr); by rewrite delete_lookup. Qed.

  Lemma with_vec_none vs i (k : vec_obj -> MV (list vec_obj)) : vs !! i = None -> with_vec vs i k = ret vs.
  Proof. unfold with_vec. by intros ->. Qed.
  Lemma with_vec_some vs i v (k : vec_obj -> MV (list vec_obj)) : vs !! i = Some v -> with_vec vs i k = k v.
  Proof. unfold with_vec. by intros ->. Qed.

  (** references to the elements of a vector *)
  Lemma elem_outside o lo capo ho hf q x : vec_owns cf o lo capo ho -> ho ⊆ hf -> lo !! q = Some x -> arg_outside hf (ARef (vec_pos o q)) x.
  Proof.
    intros Ho Hs Hq. unfold vec_pos. destruct Ho as [(_ & _ & _ & -> & _)|(b & -> & _ & _ & Hle & _ & ->)]; [done|]. simpl.
    eexists. split; [eapply lookup_weaken; [apply lookup_singleton|exact Hs]|]. simpl. split.
    - apply lookup_lt_Some in Hq. lia.
    - by rewrite lookup_map_seq_0.
  Qed.
  Lemma runs_with_elem vs o lo capo ho q k w (Q : _ -> W -> Prop) :
    vec_owns cf o lo capo ho -> ho ⊆ w_heap w ->
    (lo !! q = None -> Q vs w) -> (forall x, lo !! q = Some x -> runs (k (ARef (vec_pos o q))) w Q) ->
    runs (with_elem cf vs o q k) w Q.
  Proof.
    intros Ho Hs H1 H2. unfold with_elem. rbind. eapply owns_size; [done|]. case_decide as Hq.
    - destruct (lookup_lt_is_Some_2 _ _ Hq) as (x & Hx). rbind. eapply runs_index; [done..|]. by eapply H2.
    - apply runs_ret. apply H1. apply lookup_ge_None. lia.
  Qed.
  Lemma sub_min a b (lo : list V) : take (b `min` length lo - a `min` length lo) (drop (a `min` length lo) lo) = sub a b lo.
  Proof.
    unfold sub. destruct (decide (length lo <= a)) as [Ha|Ha].
    - rewrite !drop_ge by lia. by rewrite !take_nil.
    - rewrite (Nat.min_l a) by lia. destruct (decide (length lo <= b)).
      + rewrite Nat.min_r by lia. rewrite !take_ge; [done|rewrite drop_length; lia..].
      + by rewrite Nat.min_l by lia.
  Qed.
  Lemma sub_length a b (lo : list V) : length (sub a b lo) = b `min` length lo - a `min` length lo.
  Proof. unfold sub. rewrite take_length, drop_length. lia. Qed.
  Lemma refs_outside o lo capo ho hf n a : vec_owns cf o lo capo ho -> ho ⊆ hf -> a + n <= length lo ->
    Forall2 (arg_outside hf) (refs (vec_pos o a) n) (take n (drop a lo)).
  Proof.
    intros Ho Hs. revert a. induction n as [|n IH]; intros a Hn; simpl; [constructor|].
    destruct (lookup_lt_is_Some_2 lo a) as (x & Hx); [lia|]. rewrite (drop_S _ _ _ Hx). simpl. constructor.
    - by eapply elem_outside.
    - replace (match vec_pos o a with Null => Null | Ptr b o0 => Ptr b (S o0) end) with (vec_pos o (S a)) by (unfold vec_pos; by destruct (m_start o)).
      apply IH. lia.
  Qed.
  Lemma poff_pos o lo capo ho a : vec_owns cf o lo capo ho -> a <= length lo -> poff (vec_pos o a) = a.
  Proof. unfold vec_pos. intros [(-> & _ & _ & -> & _)|(b & -> & _)] Ha; simpl in *; lia. Qed.

  Lemma runs_post {A} (m : MV A) w (Q : A -> W -> Prop) (P : A -> Prop) : post m P -> runs m w Q -> runs m w (fun a w' => P a /\ Q a w').
  Proof. intros Hp (a & w' & Hr & Hq). exists a, w'. split; [done|]. split; [by eapply Hp|done]. Qed.

  Lemma runs_exec_rop op vs ls hv hf w :
    cfg_ok cf -> growth_ok cf -> rop_legal cf op ->
    row_own cf vs ls hv -> heap_is w hv hf -> w_err w = None ->
    runs (exec_rop cf op vs) w (rpost op vs ls hf).
  Proof.
    intros Hcf Hg Hlegal Hr Hh He. pose proof (row_length _ _ _ Hr) as Hlen.
    assert (Hnone : rop_spec op ls None ls -> runs (@ret (vblock V) _ vs) w (rpost op vs ls hf)).
    { intros Hs. apply runs_ret. eapply rpost_same; [done..|]. by rewrite He. }
    assert (Helem : forall i j q k,
      (ls !! j ≫= (.!! q) = None -> rop_spec op ls None ls) -> (ls !! i = None -> rop_spec op ls None ls) ->
      (forall v l cap h1 h2 o lo capo ho x, vs !! i = Some v -> ls !! i = Some l -> m_allocator v = c_dflt cf -> vec_owns cf v l cap h1 ->
         heap_is w h1 (h2 ∪ hf) -> h2 ##ₘ hf -> row_own cf (delete i vs) (delete i ls) h2 ->
         vec_owns cf o lo capo ho -> ho ⊆ h1 ∪ (h2 ∪ hf) -> (i <> j -> ho ⊆ h2 ∪ hf) -> ls !! j = Some lo -> lo !! q = Some x -> ls !! j ≫= (.!! q) = Some x ->
         runs (k v (ARef (vec_pos o q))) w (rpost op vs ls hf)) ->
      runs (with_two vs i j (fun v o => with_elem cf vs o q (k v))) w (rpost op vs ls hf)).
    { intros i j q k Hn1 Hn2 Hk. unfold with_two. destruct (vs !! i) as [v|] eqn:Hi.
      2:{ rewrite with_vec_none by done. apply Hnone, Hn2. by eapply row_none. }
      rewrite (with_vec_some _ _ _ _ Hi). destruct (vs !! j) as [o|] eqn:Hj.
      2:{ rewrite with_vec_none by done. apply Hnone, Hn1. by rewrite (row_none _ _ _ _ Hr Hj). }
      rewrite (with_vec_some _ _ _ _ Hj). destruct (row_lookup _ _ _ _ _ Hr Hj) as (lo & Hlo).
      destruct (row_there _ _ _ _ _ _ Hr Hj Hlo) as (capo & ho & _ & Ho & Hsub).
      destruct (row_get_at _ _ _ _ _ _ _ Hr Hh Hi) as (l & cap & h1 & h2 & Hl & Ha & Hv & Hh1 & Hd & -> & Hr').
      eapply runs_with_elem; [done|..].
      - etrans; [exact Hsub|]. destruct Hh as [-> _]. apply map_union_subseteq_l.
      - intros Hq. eapply rpost_same; [done..|]. rewrite He. apply Hn1. by rewrite Hlo.
      - intros x Hx. destruct (decide (i = j)) as [->|Hne].
        + simplify_eq. eapply (Hk _ _ _ _ _ _ _ _ h1); try done; [apply map_union_subseteq_l|by rewrite Hlo].
        + destruct (row_other _ _ _ _ _ _ _ Hr' Hne Hj Hlo) as (capo' & ho' & _ & Ho' & Hsub').
          assert (ho' ⊆ h2 ∪ hf) by (etrans; [exact Hsub'|apply map_union_subseteq_l]).
          eapply (Hk _ _ _ _ _ _ _ _ ho'); try done; [|by rewrite Hlo]. etrans; [done|].
          destruct Hh1 as [_ Hd1]. by apply map_union_subseteq_r. }
    assert (Htwo : forall i j k,
      (ls !! j = None -> rop_spec op ls None ls) -> (ls !! i = None -> rop_spec op ls None ls) ->
      (forall v l cap h1 h2 o lo capo ho, vs !! i = Some v -> ls !! i = Some l -> m_allocator v = c_dflt cf -> vec_owns cf v l cap h1 ->
         heap_is w h1 (h2 ∪ hf) -> h2 ##ₘ hf -> row_own cf (delete i vs) (delete i ls) h2 ->
         vec_owns cf o lo capo ho -> ho ⊆ h1 ∪ (h2 ∪ hf) -> (i <> j -> ho ⊆ h2 ∪ hf) -> ls !! j = Some lo -> vs !! j = Some o ->
         runs (k v o) w (rpost op vs ls hf)) ->
      runs (with_two vs i j k) w (rpost op vs ls hf)).
    { intros i j k Hn1 Hn2 Hk. unfold with_two. destruct (vs !! i) as [v|] eqn:Hi.
      2:{ rewrite with_vec_none by done. apply Hnone, Hn2. by eapply row_none. }
      rewrite (with_vec_some _ _ _ _ Hi). destruct (vs !! j) as [o|] eqn:Hj.
      2:{ rewrite with_vec_none by done. apply Hnone, Hn1. by rewrite (row_none _ _ _ _ Hr Hj). }
      rewrite (with_vec_some _ _ _ _ Hj). destruct (row_lookup _ _ _ _ _ Hr Hj) as (lo & Hlo).
      destruct (row_get_at _ _ _ _ _ _ _ Hr Hh Hi) as (l & cap & h1 & h2 & Hl & Ha & Hv & Hh1 & Hd & -> & Hr').
      destruct (decide (i = j)) as [->|Hne].
      - simplify_eq. eapply (Hk _ _ _ _ _ _ _ _ h1); try done. apply map_union_subseteq_l.
      - destruct (row_other _ _ _ _ _ _ _ Hr' Hne Hj Hlo) as (capo' & ho' & _ & Ho' & Hsub').
        assert (ho' ⊆ h2 ∪ hf) by (etrans; [exact Hsub'|apply map_union_subseteq_l]).
        eapply (Hk _ _ _ _ _ _ _ _ ho'); try done. etrans; [done|].
        destruct Hh1 as [_ Hd1]. by apply map_union_subseteq_r. }
    destruct op as [i op|i j q|i p j q|i n j q|i n j q|i p j a b|i j a b|i j|i j|i j|i j]; simpl in Hlegal; unfold exec_rop.
    - (* one vector *)
      destruct (vs !! i) as [v|] eqn:Hi.
      2:{ rewrite with_vec_none by done. apply Hnone. simpl. unfold on_vec. by rewrite (row_none _ _ _ _ Hr Hi). }
      rewrite (with_vec_some _ _ _ _ Hi).
      destruct (row_get_at _ _ _ _ _ _ _ Hr Hh Hi) as (l & cap & h1 & h2 & Hl & Ha & Hv & Hh1 & Hd & -> & Hr').
      rbind. eapply runs_mono; [eapply (runs_post _ _ (fun v' w' => exists l' cap' hv', vec_owns cf v' l' cap' hv' /\ heap_is w' hv' (h2 ∪ hf) /\ vop_spec op l (w_err w') l'));
        [apply post_exec_op|eapply runs_exec_op; [done..|]]|].
      { intros v' l' cap' hv' w' H1 H2 H3. eauto 10. }
      intros v' w' [Hal (l' & cap' & hv' & Ho' & Hh' & Hs)]. apply runs_ret.
      eapply rpost_one; try done.
      + rewrite Hal, Ha. by destruct op.
      + simpl. unfold on_vec. rewrite Hl. eauto.
    - (* push_back of an element *)
      case_decide as Hij.
      { apply Hnone. simpl. destruct (ls !! j ≫= _); [by rewrite decide_True by done|done]. }
      apply Helem.
      + intros Hq. simpl. by rewrite Hq.
      + intros Hl. simpl. destruct (ls !! j ≫= _); [rewrite decide_False by done; unfold on_vec; by rewrite Hl|done].
      + intros v l cap h1 h2 o lo capo ho x Hi Hl Ha Hv Hh1 Hd Hr' Ho _ Hs Hlo Hx Hjx. specialize (Hs Hij).
        rbind. eapply runs_push_back; [done..|left; by eapply elem_outside|].
        intros v' w' (Hal & _ & _ & Hp). apply runs_ret.
        destruct Hp as [(He' & hv' & Ho' & Hh')|(e & He' & _ & cap'' & hv' & Ho' & Hh')];
          (eapply rpost_one; [done..|congruence|done|done|done|done|]; simpl; rewrite Hjx, decide_False by done; unfold on_vec; rewrite Hl, He'; by eexists).
    - (* insert of an element *)
      case_decide as Hij.
      { apply Hnone. simpl. destruct (ls !! j ≫= _); [by rewrite decide_True by done|done]. }
      apply (Helem i j q (fun v a => let! pos := pos_at v p in let! r := vec_insert cf v pos a in put vs i r.2)).
      + intros Hq. simpl. by rewrite Hq.
      + intros Hl. simpl. destruct (ls !! j ≫= _); [rewrite decide_False by done; unfold on_vec; by rewrite Hl|done].
      + intros v l cap h1 h2 o lo capo ho x Hi Hl Ha Hv Hh1 Hd Hr' Ho _ Hs Hlo Hx Hjx. specialize (Hs Hij).
        rbind. eapply runs_pos_at; [done..|]. unfold vec_insert. rbind.
        eapply runs_insert_value; [done..|lia|left; by eapply elem_outside|]. intros r w' (Hal & _ & _ & Hp). apply runs_ret.
        destruct Hp as [(He' & _ & hv' & Ho' & Hh')|(e & He' & _ & _ & [(cap'' & hv' & Ho' & Hh')|(_ & Hk & _)])]; [..|done].
        * eapply rpost_one; [done..|congruence|done|done|done|done|]. simpl. rewrite Hjx, decide_False by done. unfold on_vec.
          rewrite Hl, He', take_min, drop_min. by eexists.
        * eapply rpost_one; [done..|congruence|done|done|done|done|]. simpl. rewrite Hjx, decide_False by done. unfold on_vec.
          rewrite Hl, He'. by eexists.
    - (* resize with an element *)
      case_decide as Hij.
      { apply Hnone. simpl. destruct (ls !! j ≫= _); [by rewrite decide_True by done|done]. }
      apply Helem.
      + intros Hq. simpl. by rewrite Hq.
      + intros Hl. simpl. destruct (ls !! j ≫= _); [rewrite decide_False by done; unfold on_vec; by rewrite Hl|done].
      + intros v l cap h1 h2 o lo capo ho x Hi Hl Ha Hv Hh1 Hd Hr' Ho _ Hs Hlo Hx Hjx. specialize (Hs Hij).
        rbind. eapply runs_resize; [done..| |by eapply elem_outside| |].
        { right. by eapply growth_fits. }
        * intros v' hv' w' Hn Hal _ Ho' Hh' He' _ _. apply runs_ret.
          eapply rpost_one; [done..|congruence|done|done|done|done|]. simpl. rewrite Hjx, decide_False by done. unfold on_vec.
          rewrite Hl, He'. eexists. split; [|done].  simpl. by rewrite decide_True.
        * intros v' cap' hv' w' k Hn Hal Hk Ho' Hh' _ Hres. apply runs_ret.
          eapply rpost_one; [done..|congruence|done|done|done|done|]. simpl. rewrite Hjx, decide_False by done. unfold on_vec.
          rewrite Hl. eexists. split; [|done]. simpl. rewrite decide_False by lia. destruct Hres as [(-> & -> & _)|(e & -> & Hk')]; eauto.
    - (* assign of copies of an element *)
      apply Helem.
      + intros Hq. simpl. by rewrite Hq.
      + intros Hl. simpl. destruct (ls !! j ≫= _); [unfold on_vec; by rewrite Hl|done].
      + intros v l cap h1 h2 o lo capo ho x Hi Hl Ha Hv Hh1 Hd Hr' Ho Hs _ Hlo Hx Hjx.
        rbind. eapply (runs_assign_n cf n v l cap h1 (h2 ∪ hf) _ x); [done..|by eapply elem_outside|].
        intros v' cap' hv' w' k Hal Hk Ho' Hh' Hres. apply runs_ret.
        eapply rpost_one; [done..|]. simpl. rewrite Hjx. unfold on_vec. rewrite Hl. eexists. split; [|done]. simpl.
        destruct Hres as [(-> & ->)|(e & -> & Hk')]; eauto.
    - (* insert of a range *)
      case_decide as Hij.
      { apply Hnone. simpl. destruct (ls !! j); [by rewrite decide_True by done|done]. }
      apply Htwo.
      + intros Hq. simpl. by rewrite Hq.
      + intros Hl. simpl. destruct (ls !! j); [rewrite decide_False by done; unfold on_vec; by rewrite Hl|done].
      + intros v l cap h1 h2 o lo capo ho Hi Hl Ha Hv Hh1 Hd Hr' Ho Hsall Hs Hlo Hj. specialize (Hs Hij).
        assert (exists hf', heap_is w ho hf') as (hf' & Hho).
        { exists (w_heap w ∖ ho). destruct Hh1 as [Hw _]. rewrite <-Hw in Hsall. split.
          - symmetry. by apply map_difference_union.
          - by apply map_disjoint_difference_r. }
        rbind. eapply runs_pos_at; [done..|]. rbind. eapply (runs_pos_at cf o); [done..|]. rbind. eapply (runs_pos_at cf o); [done..|].
        rewrite !(poff_pos _ _ _ _ _ Ho) by lia. rbind.
        pose proof (refs_outside _ _ _ _ (h2 ∪ hf) (b `min` length lo - a `min` length lo) (a `min` length lo) Ho Hs) as Hargs.
        rewrite sub_min in Hargs.
        eapply runs_insert_range; [done..|lia|apply Hargs; lia|]. intros v' w' Hal Hres. rewrite take_min, drop_min in Hres. apply runs_ret.
        destruct Hres as [(He' & cap' & hv' & Ho' & Hh')|(e & He' & k & Hk & [(cap'' & hv' & Ho' & Hh')|(_ & Hn & _)])]; [..|done];
          (eapply rpost_one; [done..|congruence|done|done|done|done|]; simpl; rewrite Hlo, decide_False by done; unfold on_vec; rewrite Hl, He'; eexists; (split; [|done]); simpl; eauto).
    - (* assign of a range *)
      case_decide as Hab.
      2:{ apply Hnone. simpl. destruct (ls !! j); [by rewrite decide_False by done|done]. }
      apply Htwo.
      + intros Hq. simpl. by rewrite Hq.
      + intros Hl. simpl. destruct (ls !! j); [rewrite decide_True by done; unfold on_vec; by rewrite Hl|done].
      + intros v l cap h1 h2 o lo capo ho Hi Hl Ha Hv Hh1 Hd Hr' Ho Hsall _ Hlo Hj.
        assert (exists hf', heap_is w ho hf') as (hf' & Hho).
        { exists (w_heap w ∖ ho). destruct Hh1 as [Hw _]. rewrite <-Hw in Hsall. split.
          - symmetry. by apply map_difference_union.
          - by apply map_disjoint_difference_r. }
        rbind. eapply (runs_pos_at cf o); [done..|]. rbind. eapply (runs_pos_at cf o); [done..|]. rbind.
        eapply (runs_assign_ptrs cf v l cap h1 o lo capo ho); [done..|lia|lia|].
        intros v' cap' hv' w' k Hal Hk Ho' Hh' Hres. apply runs_ret.
        eapply rpost_one; [done..|]. simpl. rewrite Hlo, decide_True by done. unfold on_vec. rewrite Hl. eexists. split; [|done]. simpl.
        unfold becomes. destruct Hres as [(-> & ->)|(e & -> & _)]; [apply sub_min|]. exists k. rewrite sub_length. split; [done|].
        rewrite <-sub_min, take_take. f_equal. lia.
    - (* copy *)
      apply Htwo.
      + intros Hq. simpl. by rewrite Hq.
      + intros Hl. simpl. destruct (ls !! j); [unfold on_vec; by rewrite Hl|done].
      + intros v l cap h1 h2 o lo capo ho Hi Hl Ha Hv Hh1 Hd Hr' Ho Hsall _ Hlo Hj.
        rbind. eapply (runs_vec_copy cf v l cap h1 o lo capo ho); [done..|].
        intros v' cap' hv' w' k Hal Hk Ho' Hh' Hres. apply runs_ret.
        eapply rpost_one; [done..|]. simpl. rewrite Hlo. unfold on_vec. rewrite Hl. eexists. split; [|done]. simpl.
        unfold becomes. destruct Hres as [(-> & ->)|(e & -> & _)]; [by rewrite take_ge|]. by exists k.
    - (* throwing copy *)
      apply Htwo.
      + intros Hq. simpl. by rewrite Hq.
      + intros Hl. simpl. destruct (ls !! j); [unfold on_vec; by rewrite Hl|done].
      + intros v l cap h1 h2 o lo capo ho Hi Hl Ha Hv Hh1 Hd Hr' Ho Hsall _ Hlo Hj.
        rbind. eapply (runs_hvec_copy_assign cf v l cap h1 o lo capo ho); [done..| |].
        * intros v' cap' hv' w' Ho' Hh' _ Hal. rbind. apply runs_put_err. apply runs_ret.
          eapply rpost_one; [done..|]. simpl. rewrite Hlo. unfold on_vec. rewrite Hl. by eexists.
        * intros e w' Hw' _. rbind. apply runs_put_err. apply runs_ret.
          eapply (rpost_one _ _ _ _ _ l v l); [done..| | | | |].
          -- done.
          -- destruct Hh1 as [H1 H2]. split; [simpl; by rewrite Hw'|done].
          -- done.
          -- done.
          -- simpl. rewrite Hlo. unfold on_vec. rewrite Hl. by eexists.
    - (* move *)
      apply Htwo.
      + intros Hq. simpl. rewrite Hq. by destruct (ls !! i).
      + intros Hl. simpl. by rewrite Hl.
      + intros v l cap h1 h2 o lo capo ho Hi Hl Ha Hv Hh1 Hd Hr' Ho Hsall _ Hlo Hj. case_decide as Hij.
        * subst j. rbind. eapply (runs_move_assign_self cf v l cap h1); [done..|]. intros v' w' Ho' Hal ->. apply runs_ret.
          destruct Hh1 as [Hw1 Hd1].
          exists (<[ i := [] ]> ls), (∅ ∪ h2). split; [|split; [|split; [|split]]].
          -- apply row_put; try done; [by eapply lookup_lt_Some| |apply map_disjoint_empty_l]. split; [congruence|by eexists].
          -- split; [simpl; by rewrite (left_id_L ∅ (∪))|]. by rewrite (left_id_L ∅ (∪)).
          -- simpl. rewrite Hl, decide_True by done. done.
          -- by rewrite insert_length.
          -- intros k Hk. rewrite list_lookup_insert_ne; [done|]. intros ->. apply Hk. constructor.
        * destruct (row_get2 vs ls hv i j v l o lo Hr Hij Hi Hl Hj Hlo) as (g1 & g2 & g3 & (_ & c1 & H1) & (Hao & c2 & H2) & Hg1 & Hg2 & -> & Hput).
          destruct Hh as [Hw Hdw]. apply map_disjoint_union_l in Hdw as [D1 D2]. apply map_disjoint_union_l in D2 as [D2 D3].
          apply map_disjoint_union_r in Hg1 as [E1 E2].
          rbind. eapply (runs_move_assign cf v l c1 g1 o lo c2 g2 (g3 ∪ hf)); [done..|congruence| | |].
          { split; [by rewrite Hw, !(assoc_L (∪))|]. apply map_disjoint_union_r; split; [done|]. by apply map_disjoint_union_r. }
          { by apply map_disjoint_union_r. }
          intros v' o' w' Ho1 Ho2 _ Hal1 Hal2 ->. apply runs_ret. cbn [fst snd].
          exists (<[ i := lo ]> (<[ j := [] ]> ls)), (g2 ∪ (∅ ∪ g3)). split; [|split; [|split; [|split]]].
          -- apply Hput; [split; [congruence|by eexists]..|apply map_disjoint_empty_l|by rewrite (left_id_L ∅ (∪))].
          -- rewrite (left_id_L ∅ (∪)). split; [simpl; by rewrite (assoc_L (∪))|]. by apply map_disjoint_union_l.
          -- simpl. rewrite Hl, Hlo, decide_False by done. done.
          -- by rewrite !insert_length.
          -- intros k Hk. simpl in Hk. rewrite !list_lookup_insert_ne; [done|..]; intros ->; apply Hk; set_solver.
    - (* swap *)
      apply Htwo.
      + intros Hq. simpl. rewrite Hq. by destruct (ls !! i).
      + intros Hl. simpl. by rewrite Hl.
      + intros v l cap h1 h2 o lo capo ho Hi Hl Ha Hv Hh1 Hd Hr' Ho Hsall _ Hlo Hj. case_decide as Hij.
        * subst j. apply Hnone. simpl. rewrite Hl. simplify_eq. split; [done|]. rewrite (list_insert_id ls i) by done. by rewrite list_insert_id.
        * destruct (row_get2 vs ls hv i j v l o lo Hr Hij Hi Hl Hj Hlo) as (g1 & g2 & g3 & (_ & c1 & H1) & (Hao & c2 & H2) & Hg1 & Hg2 & -> & Hput).
          destruct Hh as [Hw Hdw]. apply map_disjoint_union_l in Hdw as [D1 D2]. apply map_disjoint_union_l in D2 as [D2 D3].
          apply map_disjoint_union_r in Hg1 as [E1 E2].
          apply runs_ret. exists (<[ i := lo ]> (<[ j := l ]> ls)), (g2 ∪ (g1 ∪ g3)). split; [|split; [|split; [|split]]].
          -- unfold vec_swap, swap_data. simpl. apply Hput; [split; [simpl; congruence|]..|done|by apply map_disjoint_union_r].
             { exists c2. by apply owns_move. }
             { exists c1. by apply owns_move. }
          -- split.
             ++ rewrite Hw. rewrite !(assoc_L (∪)). do 2 f_equal. by apply map_union_comm.
             ++ apply map_disjoint_union_l; split; [done|]. by apply map_disjoint_union_l.
          -- simpl. rewrite He, Hl, Hlo. done.
          -- by rewrite !insert_length.
          -- intros k Hk. simpl in Hk. rewrite !list_lookup_insert_ne; [done|..]; intros ->; apply Hk; set_solver.
  Qed.

  Lemma runs_exec_rops ops vs ls hv hf w (Q : _ -> W -> Prop) :
    cfg_ok cf -> growth_ok cf -> Forall (rop_legal cf) ops ->
    row_own cf vs ls hv -> heap_is w hv hf ->
    (forall vs' es ls' hv' w', row_own cf vs' ls' hv' -> heap_is w' hv' hf -> rops_spec ops ls es ls' ->
       length vs' = length vs -> Q (vs', es) w') ->
    runs (exec_rops cf ops vs) w Q.
  Proof.
    intros Hcf Hg. revert vs ls hv w Q.
    induction ops as [|op ops IH]; intros vs ls hv w Q Hlegal Hr Hh HQ; cbn [exec_rops].
    - apply runs_ret. by eapply HQ.
    - inversion_clear Hlegal. rbind. apply runs_put_err. rbind.
      eapply runs_mono; [eapply runs_exec_rop; [done..| |done]|]; [exact Hh|].
      intros vs1 w1 (ls1 & hv1 & Hr1 & Hh1 & Hs1 & Hl1 & _). rbind. apply runs_get_err. rbind.
      eapply IH; [done..|]. intros vs2 es ls2 hv2 w2 Hr2 Hh2 Hs2 Hl2. apply runs_ret.
      eapply HQ; [done..| |simpl; by rewrite Hl2, Hl1]. simpl. eauto.
  Qed.

  Lemma runs_destroy_row vs ls hv hf w (Q : _ -> W -> Prop) :
    row_own cf vs ls hv -> heap_is w hv hf -> Q tt (set_heap hf w) -> runs (destroy_row vs) w Q.
  Proof.
    revert ls hv w. induction vs as [|v vs IH]; intros [|l ls] hv w; try done.
    - intros -> [Hw _] HQ. rewrite (left_id_L ∅ (∪)) in Hw. simpl. apply runs_ret. by rewrite (set_heap_id w hf) in HQ.
    - intros (h1 & h2 & (_ & cap & Ho) & Hr & Hd & ->) [Hw Hdw] HQ. apply map_disjoint_union_l in Hdw as [D1 D2]. simpl. rbind.
      eapply (runs_vec_destroy cf v l cap h1 (h2 ∪ hf)); [done|split; [by rewrite Hw, (assoc_L (∪))|by apply map_disjoint_union_r]|].
      eapply IH; [done|split; [done|done]|]. done.
  Qed.

  Lemma row_new al k : al = c_dflt cf -> row_own cf (replicate k (vec_new al)) (replicate k []) ∅.
  Proof.
    intros ->. induction k as [|k IH]; simpl; [done|]. exists ∅, ∅. split; [split; [done|]; exists 0; apply owns_new|].
    split; [done|]. split; [apply map_disjoint_empty_l|]. by rewrite (left_id_L ∅ (∪)).
  Qed.
End row.
