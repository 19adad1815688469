(** * C16: vector functions that need storage, with an error object that is
    already set *)
From Verif Require Import VecExact VecExtra PropVector PropStale.

Section stale.
  Context {V : Type} (cf : cfg V).
  Notation W := (world (vblock V)).
  Implicit Types w : W.

  Lemma runs_do_reserve_stale v n w (Q : vec_obj -> W -> Prop) :
    cfg_ok cf -> (N.of_nat n * c_sizeof cf < 2^64)%N -> w_err w <> None ->
    (forall w', w_err w' <> None -> (c_max cf < N.of_nat n * c_sizeof cf)%N -> w_heap w' = w_heap w -> Q v w') ->
    (forall w', (N.of_nat n * c_sizeof cf <= c_max cf)%N -> leaks_one (Block (m_allocator v) n n ∅) w w' -> Q v w') ->
    runs (do_reserve cf v n) w Q.
  Proof.
    intros [[Hs1 Hs2] _] Hb He Hbig Hl. unfold do_reserve, allocate, wrap64. rewrite N.mod_small by done. case_decide as Hmax.
    - rbind. eapply runs_eq; [reflexivity|]. rbind. apply runs_has_err. simpl. apply runs_ret. by apply Hbig.
    - rewrite N.div_mul by lia. rewrite Nat2N.id. rbind. rbind.
      destruct w as [h [|[code|hint] o] [e|] na nc]; [|done| |done| |done]; (eapply runs_eq; [cbn; reflexivity|]);
        apply runs_ret; (rbind; apply runs_has_err; simpl; apply runs_ret; apply Hl; [lia|split; [done|]; split; [done|]]); simpl; [|done|];
        (eexists; split; [|done]; apply pick_fresh).
  Qed.
End stale.

(** reserve(n): the vector is unchanged and the new storage is lost. *)
Theorem C16_stale_reserve V (cf : cfg V) v l cap hv hf n w :
  cfg_ok cf -> vec_owns cf v l cap hv -> heap_is w hv hf -> w_err w <> None ->
  cap < n -> (N.of_nat n * c_sizeof cf <= c_max cf)%N -> bytes_fit cf n ->
  runs (vec_reserve cf v n) w (fun v' w' => v' = v /\ leaks_one (Block (m_allocator v) n n ∅) w w').
Proof.
  intros Hcf Ho Hh He Hn Hm Hb. unfold vec_reserve. rbind. eapply owns_capacity; [done|]. rewrite decide_False by lia.
  rewrite decide_False by (pose proof (bytes_fits _ n Hcf Hb); unfold fits, size_max in *; lia).
  eapply runs_do_reserve_stale; [done|done|done|lia|done].
Qed.
Print Assumptions C16_stale_reserve.

(** resize(n, x) to more than size(), whatever the capacity: no element is
    added, and the storage is lost unless it could not be had. *)
Theorem C16_stale_resize V (cf : cfg V) v l cap hv hf n a w :
  cfg_ok cf -> growth_ok cf -> vec_owns cf v l cap hv -> heap_is w hv hf -> w_err w <> None ->
  length l < n -> bytes_fit cf n ->
  runs (vec_resize cf v n a) w (fun v' w' => v' = v /\ w_err w' <> None /\
    exists m, n <= m /\ cap < m /\
      (w_heap w' = w_heap w /\ (c_max cf < N.of_nat m * c_sizeof cf)%N \/ leaks_one (Block (m_allocator v) m m ∅) w w')).
Proof.
  intros Hcf Hg Ho Hh He Hn Hb. unfold vec_resize. rbind. eapply owns_size; [done|]. rewrite decide_False by lia.
  pose proof (owns_cap_ok _ _ _ _ _ Hcf Ho) as Hco.
  pose proof (grow_cap_ge cap n) as Hge.
  assert (cap < grow_cap cap n) as Hgt by (apply grow_cap_gt; right; by eapply growth_fits).
  assert (Hby : (N.of_nat (grow_cap cap n) * c_sizeof cf < 2^64)%N) by (by apply grow_cap_bytes).
  rbind. unfold grow. rbind. eapply owns_capacity; [done|]. fold (grow_cap cap n).
  rbind. apply runs_assert; [by apply bool_decide_eq_true|].
  unfold vec_reserve. rbind. eapply owns_capacity; [done|]. rewrite decide_False by lia.
  rewrite decide_False by (pose proof (bytes_fits _ _ Hcf Hby); unfold fits, size_max in *; lia).
  eapply runs_do_reserve_stale; [done|done|done| |].
  - intros w' He' Hbig Hw. rbind. apply runs_has_err. destruct (w_err w') eqn:E; [|done]. apply runs_ret.
    split_and!; [done|by rewrite E|]. exists (grow_cap cap n). split_and!; [done|done|]. by left.
  - intros w' _ Hl. rbind. apply runs_has_err. destruct (w_err w') eqn:E; [|by destruct Hl]. apply runs_ret.
    split_and!; [done|by rewrite E|]. exists (grow_cap cap n). split_and!; [done|done|]. by right.
Qed.
Print Assumptions C16_stale_resize.

(** After the call, of the memory [w_heap w] that the call started with only the part [h]
    is left, and a block for [n] elements is lost, unless the allocator refused it or
    it is larger than the allocator's limit. *)
Definition left_and_lost {V} (cf : cfg V) (al : alloc_id) (n : nat) (h : gmap addr (vblock V)) (w w' : world (vblock V)) : Prop :=
  w_err w' <> None /\
  if decide (c_max cf < N.of_nat n * c_sizeof cf)%N then w_heap w' = h /\ w_orc w' = w_orc w else
  w_orc w' = tail (w_orc w) /\
  match head (w_orc w) with
  | Some (EvFail _) => w_heap w' = h
  | _ => exists b, w_heap w !! b = None /\ w_heap w' = <[b := Block al n n ∅]> h
  end.

Section stale_assign.
  Context {V : Type} (cf : cfg V).
  Notation W := (world (vblock V)).
  Implicit Types w : W.

  Lemma runs_do_reserve_lost v n w (Q : vec_obj -> W -> Prop) :
    cfg_ok cf -> (N.of_nat n * c_sizeof cf < 2^64)%N -> w_err w <> None ->
    (forall w', left_and_lost cf (m_allocator v) n (w_heap w) w w' -> Q v w') ->
    runs (do_reserve cf v n) w Q.
  Proof.
    intros [[Hs1 Hs2] _] Hb He HQ. unfold left_and_lost in HQ.
    unfold do_reserve, allocate, wrap64. rewrite N.mod_small by done. case_decide as Hmax.
    - rbind. eapply runs_eq; [reflexivity|]. rbind. apply runs_has_err. simpl. apply runs_ret. apply HQ. by split.
    - rewrite N.div_mul by lia. rewrite Nat2N.id. rbind. rbind.
      destruct w as [h [|[code|hint] o] [e|] na nc]; [|done| |done| |done]; (eapply runs_eq; [cbn; reflexivity|]);
        apply runs_ret; (rbind; apply runs_has_err; simpl; apply runs_ret; apply HQ; split; [done|split; [done|]]); simpl; [|done|];
        (eexists; split; [|done]; apply pick_fresh).
  Qed.

  Lemma runs_grow_new_stale n w (Q : vec_obj -> W -> Prop) :
    cfg_ok cf -> (N.of_nat n * c_sizeof cf < 2^64)%N -> w_err w <> None ->
    (forall w', left_and_lost cf (c_dflt cf) (n `max` 1) (w_heap w) w w' -> Q (vec_new (c_dflt cf)) w') ->
    runs (grow cf (vec_new (c_dflt cf)) n) w Q.
  Proof.
    intros Hcf Hb He HQ. pose proof (owns_new cf (c_dflt cf)) as Ho.
    pose proof (owns_cap_ok _ _ _ _ _ Hcf Ho) as Hco.
    assert (Hg : grow_cap 0 n = n `max` 1).
    { unfold grow_cap. rewrite (sz_fits (0 + 1)) by (unfold fits; lia). rewrite (sz_fits ((0 + 1) * 3)) by (unfold fits; lia). simpl. case_decide; lia. }
    assert (Hby : (N.of_nat (grow_cap 0 n) * c_sizeof cf < 2^64)%N) by (by apply grow_cap_bytes).
    unfold grow. rbind. eapply owns_capacity; [done|]. fold (grow_cap 0 n). rewrite Hg in *.
    rbind. apply runs_assert; [apply bool_decide_eq_true; lia|].
    unfold vec_reserve. rbind. eapply owns_capacity; [done|]. rewrite decide_False by lia.
    rewrite decide_False by (pose proof (bytes_fits _ _ Hcf Hby); unfold fits, size_max in *; lia).
    by eapply runs_do_reserve_lost.
  Qed.

  (** the old contents are destroyed afterwards *)
  Lemma runs_lost_destroy v l cap hv hf n al w w' (Q : unit -> W -> Prop) :
    vec_owns cf v l cap hv -> heap_is w hv hf -> left_and_lost cf al n (w_heap w) w w' ->
    (forall w'', left_and_lost cf al n hf w w'' -> Q tt w'') ->
    runs (vec_destroy v) w' Q.
  Proof.
    intros Ho [Hw Hd] (He & Hl) HQ. unfold left_and_lost in HQ.
    assert (Hgo : forall h', w_heap w' = hv ∪ h' -> hv ##ₘ h' ->
      (forall w'', w_heap w'' = h' -> w_err w'' = w_err w' -> w_orc w'' = w_orc w' -> Q tt w'') -> runs (vec_destroy v) w' Q).
    { intros h' Hh' Hd' HQ'. eapply (runs_destroy_tmp cf v l cap ∅ hv h'); [done|done|by apply heap_is_empty|].
      intros w3 [Hh3 _] He3 _ _ Ho3. apply HQ'; [by rewrite Hh3, (left_id_L ∅ (∪))|done|done]. }
    destruct (decide _) as [Hbig|Hok].
    { destruct Hl as [Hl Hor]. apply (Hgo hf); [congruence|done|]. intros w'' H1 H2 H3. apply HQ. split; [congruence|]. split; congruence. }
    destruct Hl as [Hor Hl]. destruct (head (w_orc w)) as [[code|hint]|].
    - apply (Hgo hf); [congruence|done|]. intros w'' H1 H2 H3. apply HQ. split; [congruence|]. split; congruence.
    - destruct Hl as (b & Hb & Hl). pose proof Hb as Hb'. rewrite Hw, lookup_union_None in Hb'. destruct Hb' as [Hb1 Hb2].
      apply (Hgo (<[b := Block al n n ∅]> hf)); [by rewrite Hl, Hw, insert_union_r|by apply map_disjoint_insert_r_2|].
      intros w'' H1 H2 H3. apply HQ. split; [congruence|]. split; [congruence|]. by exists b.
    - destruct Hl as (b & Hb & Hl). pose proof Hb as Hb'. rewrite Hw, lookup_union_None in Hb'. destruct Hb' as [Hb1 Hb2].
      apply (Hgo (<[b := Block al n n ∅]> hf)); [by rewrite Hl, Hw, insert_union_r|by apply map_disjoint_insert_r_2|].
      intros w'' H1 H2 H3. apply HQ. split; [congruence|]. split; [congruence|]. by exists b.
  Qed.
End stale_assign.

(** assign(n, x): the elements and their storage are gone, the vector is empty,
    and the storage meant for the new ones is lost. *)
Theorem C16_stale_assign_n V (cf : cfg V) v l cap hv hf n a w :
  cfg_ok cf -> vec_owns cf v l cap hv -> heap_is w hv hf -> w_err w <> None -> bytes_fit cf n ->
  runs (vec_assign_n cf v n a) w (fun v' w' =>
    v' = vec_new (c_dflt cf) /\ left_and_lost cf (c_dflt cf) (n `max` 1) hf w w').
Proof.
  intros Hcf Ho Hh He Hb. unfold vec_assign_n. rewrite vec_swap_new. rbind. apply runs_assert; [done|].
  rbind. eapply runs_grow_new_stale; [done|done|done|]. intros w' Hl. rbind. apply runs_has_err.
  destruct (w_err w') eqn:E; [|by destruct Hl]. rbind. apply runs_ret. rbind. eapply runs_lost_destroy; [done|done|done|].
  intros w'' Hl'. by apply runs_ret.
Qed.
Print Assumptions C16_stale_assign_n.

(** assign(first, last) from a range of any vector's elements, and copy: so
    copying a vector with an error object that is set empties the target. *)
Theorem C16_stale_assign V (cf : cfg V) v l cap hv o lo capo ho hf i j w :
  cfg_ok cf -> vec_owns cf v l cap hv -> heap_is w hv hf -> w_err w <> None ->
  vec_owns cf o lo capo ho -> i <= j -> j <= length lo ->
  runs (vec_assign_ptrs cf v (vec_pos o i) (vec_pos o j)) w (fun v' w' =>
    v' = vec_new (c_dflt cf) /\ left_and_lost cf (c_dflt cf) ((j - i) `max` 1) hf w w').
Proof.
  intros Hcf Ho Hh He Hoo Hij Hj. unfold vec_assign_ptrs. rewrite vec_swap_new. rbind. apply runs_assert; [done|].
  rbind. assert (Hdiff : runs (pdiff (vec_pos o j) (vec_pos o i)) w (fun n w' => n = j - i /\ w' = w)).
  { unfold vec_pos. destruct Hoo as [(Hs & _ & _ & -> & _)|(bs & Hs & _)]; rewrite Hs.
    - simpl in Hj. apply runs_pdiff_null. split; [lia|done].
    - by apply runs_pdiff. }
  eapply runs_mono; [apply Hdiff|]. intros n w0 [-> ->].
  pose proof (owns_le _ _ _ _ _ Hoo) as Hle. pose proof (owns_cap_ok _ _ _ _ _ Hcf Hoo) as Hco.
  rbind. eapply runs_grow_new_stale; [done| |done|].
  { unfold cap_ok in Hco. destruct Hcf as [[??]?]. nia. }
  intros w' Hl. rbind. apply runs_has_err.
  destruct (w_err w') eqn:E; [|by destruct Hl]. rbind. apply runs_ret. rbind. eapply runs_lost_destroy; [done|done|done|].
  intros w'' Hl'. by apply runs_ret.
Qed.
Print Assumptions C16_stale_assign.
Theorem C16_stale_copy V (cf : cfg V) v l cap hv o lo capo ho hf w :
  cfg_ok cf -> vec_owns cf v l cap hv -> heap_is w hv hf -> w_err w <> None -> vec_owns cf o lo capo ho ->
  runs (vec_copy cf v o) w (fun v' w' =>
    v' = vec_new (c_dflt cf) /\ left_and_lost cf (c_dflt cf) (length lo `max` 1) hf w w').
Proof.
  intros Hcf Ho Hh He Hoo. unfold vec_copy.
  assert (m_start o = vec_pos o 0) as ->.
  { unfold vec_pos. by destruct Hoo as [(-> & _)|(b & -> & _)]. }
  rewrite (owns_pos_end _ _ _ _ _ Hoo). eapply runs_mono; [eapply C16_stale_assign; try done; lia|].
  cbv beta. by rewrite Nat.sub_0_r.
Qed.
Print Assumptions C16_stale_copy.

(** shrink_to_fit() of a vector with spare capacity: nothing changes, and the
    smaller block is lost. *)
Theorem C16_stale_shrink_to_fit V (cf : cfg V) v l cap hv hf w :
  cfg_ok cf -> vec_owns cf v l cap hv -> heap_is w hv hf -> w_err w <> None -> length l < cap ->
  runs (vec_shrink_to_fit cf v) w (fun v' w' =>
    v' = v /\ leaks_one (Block (m_allocator v) (length l) (length l) ∅) w w').
Proof.
  intros Hcf Ho Hh He Hl. pose proof (owns_cap_ok _ _ _ _ _ Hcf Ho) as Hco. unfold cap_ok in Hco.
  unfold vec_shrink_to_fit. rbind. eapply owns_capacity; [done|]. rbind. eapply owns_size; [done|].
  rewrite decide_True by done. eapply runs_do_reserve_stale; [done| |done| |done].
  - destruct Hcf as [[??]?]. nia.
  - intros w' _ Hbig. destruct Hcf as [[??]?]. nia.
Qed.
Print Assumptions C16_stale_shrink_to_fit.

(** insert at any position: end() is returned, and the vector is not longer.
    A full vector loses the storage it asked for.  One with room may have an
    additional object behind its last element: then it cannot be destroyed
    properly, since the destructor frees the storage with that object in it. *)
Theorem C16_stale_insert V (cf : cfg V) v l cap hv hf i a x w :
  cfg_ok cf -> vec_owns cf v l cap hv -> heap_is w hv hf -> w_err w <> None -> i <= length l ->
  arg_outside (hv ∪ hf) a x ->
  runs (vec_insert cf v (vec_pos v i) a) w (fun r w' => r = (vec_end v, v) /\ w_err w' <> None /\
    (w_heap w' = w_heap w \/
     (length l = cap /\ exists b n, cap < n /\ w_heap w !! b = None /\ w_heap w' = <[b := Block (m_allocator v) n n ∅]> (w_heap w)) \/
     (length l < cap /\ vec_destroy v w' = Fault FLive))).
Proof.
  intros Hcf Ho Hh He Hi Ha.
  pose proof (owns_cap_ok _ _ _ _ _ Hcf Ho) as Hco. pose proof (owns_le _ _ _ _ _ Ho) as Hle.
  assert (Hav : arg_val w a x).
  { eapply (arg_outside_val ∅ (hv ∪ hf)); [done|destruct Hh as [-> _]; by rewrite (left_id_L ∅ (∪))|apply map_disjoint_empty_l]. }
  destruct (w_err w) as [e|] eqn:Ee; [|done].
  unfold vec_insert, insert_value.
  destruct (insert_checks cf v l _ hv i Ho Hi) as (Hp1 & Hp2 & Hp3).
  rbind. apply runs_assert; [done|]. rbind. apply runs_assert; [done|].
  rbind. rewrite Hp3. apply runs_ret.
  rbind. eapply owns_capacity; [done|]. rbind. eapply owns_size; [done|].
  rbind. case_decide as Hfull.
  - assert (Hsz : sz (cap + 1) = S cap).
    { rewrite sz_fits; [lia|]. eapply bytes_fits; [done|]. replace (cap + 1) with (S cap) by lia. by apply cap_S_bytes. }
    rewrite Hsz. rbind. unfold grow. rbind. eapply owns_capacity; [done|].
    pose proof (cap_S_bytes cf cap Hcf Hco) as HSc.
    pose proof (grow_cap_gt cap (S cap) ltac:(left; lia)) as Hgt.
    pose proof (grow_cap_bytes cf cap (S cap) Hcf Hco HSc) as Hgb.
    fold (grow_cap cap (S cap)).
    rbind. apply runs_assert; [by apply bool_decide_eq_true|].
    unfold vec_reserve. rbind. eapply owns_capacity; [done|]. rewrite decide_False by lia.
    rewrite decide_False by (pose proof (bytes_fits cf _ Hcf Hgb); unfold fits, size_max in *; lia).
    eapply runs_do_reserve_lost; [done|done|by rewrite Ee|]. intros w' (He' & Hl).
    rbind. apply runs_has_err. destruct (w_err w') eqn:E; [|done]. apply runs_ret. apply runs_ret.
    split; [done|]. split; [by rewrite E|]. destruct (decide _); [by left; destruct Hl|].
    destruct Hl as [_ Hl]. destruct (head (w_orc w)) as [[code|hint]|]; [by left|right; left..];
      (split; [done|]; destruct Hl as (b & Hb & Hl); by exists b, (grow_cap cap (S cap))).
  - apply runs_ret. assert (length l < cap) by lia.
    rbind. eapply owns_capacity; [done|]. rbind. eapply owns_size; [done|].
    rbind. apply runs_assert; [by apply bool_decide_eq_true|].
    destruct Ho as [(Hs0 & _ & _ & -> & -> & _)|(b & Hs & Hf & Hen & _ & Hc & ->)]; [simpl in *; lia|].
    destruct Hh as [Hw Hd]. rewrite map_disjoint_singleton_l in Hd. rewrite <-insert_union_singleton_l in Hw.
    assert (Hb : w_heap w !! b = Some (Block (m_allocator v) cap cap (map_seq 0 l : gmap nat V))) by (by rewrite Hw, lookup_insert).
    assert (Hlast : (map_seq 0 l : gmap nat V) !! length l = None).
    { rewrite lookup_map_seq_0. by apply lookup_ge_None. }
    assert (Hlive : forall u orc nc, vec_destroy v (World (<[b:=Block (m_allocator v) cap cap (<[length l:=u]> (map_seq 0 l : gmap nat V))]> (w_heap w)) orc (Some e) (w_allocs w) nc) = Fault FLive).
    { intros u orc nc. destruct v as [al s f0 en]; simpl in *; subst. apply (destroy_extra _ b al cap l u); [|done]. simpl. by rewrite lookup_insert. }
    rewrite Hs, Hf. rbind. eapply runs_padd; [exact Hb|simpl; lia|]. rewrite Nat.add_0_l.
    rbind. cbn [poff]. cbn [shift_loop]. case_decide as Hend.
    + injection Hend as <-. apply runs_ret. cbn [negb].
      rbind. eapply (runs_construct_stale cf w b (length l) a x); [done|done|exact Hb|simpl; lia|exact Hlast| |].
      * intros u orc nc. simpl. rbind. apply runs_has_err; simpl. apply runs_ret.
        split; [done|]. split; [done|]. right. right. split; [done|]. apply Hlive.
      * intros orc code nc. simpl. rbind. apply runs_has_err; simpl. apply runs_ret.
        split; [done|]. split; [done|]. by left.
    + assert (i < length l) as Hlt by (destruct (decide (i = length l)) as [->|]; [done|lia]).
      destruct (length l) as [|k] eqn:Hk; [lia|]. rewrite <-Hk in *.
      destruct (lookup_lt_is_Some_2 l k ltac:(lia)) as [y Hy].
      rbind. rewrite Hk. eapply runs_eq; [reflexivity|]. rewrite <-Hk.
      rbind. eapply (runs_construct_stale cf w b (length l) (ARef (Ptr b k)) y); [done| |exact Hb|simpl; lia|exact Hlast| |].
      * cbn [arg_val]. unfold read, load_block, load, bind, get_heap. rewrite Hb. cbn. rewrite decide_True by lia. by rewrite lookup_map_seq_0, Hy.
      * intros u orc nc. simpl. rbind. apply runs_has_err; simpl. apply runs_ret. simpl. apply runs_ret.
        split; [done|]. split; [done|]. right. right. split; [done|]. apply Hlive.
      * intros orc code nc. simpl. rbind. apply runs_has_err; simpl. apply runs_ret. simpl. apply runs_ret.
        split; [done|]. split; [done|]. by left.
Qed.
Print Assumptions C16_stale_insert.

Example C16_stale_vector_example :
  let w : world (vblock nat) := World (heap1 [4; 5] 2) [EvOk 7] (Some EBadAlloc) 0 0 in
  vec_owns cfD (vec1 [4; 5] 2) [4; 5] 2 (heap1 [4; 5] 2) /\
  runs (let! v := vec_reserve cfD (vec1 [4; 5] 2) 9 in vec_destroy v) w (fun _ w' => w_heap w' = {[ 7%positive := Block 0 9 9 ∅ ]}) /\
  runs (let! v := vec_resize cfD (vec1 [4; 5] 2) 3 (AVal 6) in vec_destroy v) w (fun _ w' => w_heap w' = {[ 7%positive := Block 0 4 4 ∅ ]}) /\
  runs (vec_copy cfD (vec1 [4; 5] 2) (vec1 [4; 5] 2)) w (fun v' w' => v' = vec_new 0 /\ w_heap w' = {[ 7%positive := Block 0 2 2 ∅ ]}).
Proof. split; [apply vec1_owns; [simpl; lia|vm_compute; congruence]|]. split; [compute_run|]. split; compute_run. Qed.
