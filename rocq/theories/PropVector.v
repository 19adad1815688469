(** * Properties C01-C16 and C52-C54: vector and storage

    Each theorem is stated over the model (VecModel.v) with the vocabulary of
    VecSpec.v and VecHistSpec.v.  [runs m w Q]: the call [m], started in
    machine state [w], returns without undefined behaviour or failing
    assertion, and [Q] holds of its result and the state afterwards. *)
From Verif Require Import VecExtra VecAlloc.

(** ** A concrete instance for the examples and counterexamples *)

(** elements of 8 bytes whose copies may fail *)
Definition cfD : cfg nat := Cfg true 8 (2^62) 0 Direct 0.
(** elements of 8 bytes whose copies cannot fail *)
Definition cfN : cfg nat := Cfg true 8 (2^62) 0 Nothrow 0.
Definition w_start (orc : list event) : world (vblock nat) := World ∅ orc None 0 0.
(** a vector holding [l] in block 1 *)
Definition vec1 (l : list nat) (cap : nat) : vec_obj := Vec 0 (Ptr 1 0) (Ptr 1 (length l)) (Ptr 1 cap).
Definition heap1 (l : list nat) (cap : nat) : gmap addr (vblock nat) :=
  {[ 1%positive := Block 0 cap cap (map_seq 0 l) ]}.
Definition world1 (l : list nat) (cap : nat) (orc : list event) : world (vblock nat) :=
  World (heap1 l cap) orc None 0 0.

Lemma cfD_ok : cfg_ok cfD /\ growth_ok cfD.
Proof. repeat split; vm_compute; congruence. Qed.
Lemma cfN_ok : cfg_ok cfN /\ growth_ok cfN.
Proof. repeat split; vm_compute; congruence. Qed.
Lemma vec1_owns cf l cap : length l <= cap -> cap_ok cf cap -> vec_owns cf (vec1 l cap) l cap (heap1 l cap).
Proof. intros. right. exists 1%positive. done. Qed.
Lemma world1_is l cap orc : heap_is (world1 l cap orc) (heap1 l cap) ∅.
Proof. split; simpl; [by rewrite (right_id_L ∅ (∪))|apply map_disjoint_empty_r]. Qed.

(** ** C01 *)

Theorem C01_vector_history V (cf : cfg V) al ops w :
  cfg_ok cf -> growth_ok cf -> Forall (vop_legal cf) ops ->
  runs (exec_ops cf ops (vec_new al)) w (fun r w' =>
    exists l, vops_spec ops [] r.2 l /\ vec_shows cf w' r.1 l).
Proof.
  intros Hcf Hg Hl. eapply runs_exec_ops; [done..|apply owns_new|by apply heap_is_empty|].
  intros v' es l' cap' hv' w' Ho Hh Hs. exists l'. split; [done|]. by eapply owns_shows.
Qed.
Print Assumptions C01_vector_history.

(** a history with an allocation failure and a construction failure *)
Example C01_example :
  let ops := [OpPush 1; OpPush 2; OpInsertEnd 3; OpResize 5 7; OpResize 1 0; OpAssign 2 9; OpSelfCopy] in
  Forall (vop_legal cfD) ops /\
  runs (exec_ops cfD ops (vec_new 0)) (w_start [EvOk 4; EvOk 4; EvFail 0; EvOk 4; EvFail 3]) (fun r w' =>
    r.2 = [None; Some EBadAlloc; Some (EElem 3); None; None; None; None] /\
    w_heap w' = {[ 1%positive := Block 0 2 2 (map_seq 0 [9; 9]) ]}).
Proof. split; [repeat constructor|]. compute_run. Qed.

(** ** C02 *)

Theorem C02_push_back_strong V (cf : cfg V) v l cap hv hf a x w :
  cfg_ok cf -> vec_owns cf v l cap hv -> heap_is w hv hf -> w_err w = None -> arg_outside hf a x ->
  forall m, m = vec_push_back cf v a \/ m = vec_emplace_back cf v a ->
  runs m w (fun v' w' => exists cap' hv',
    vec_owns cf v' (match w_err w' with None => l ++ [x] | Some _ => l end) cap' hv' /\
    heap_is w' hv' hf).
Proof.
  intros Hcf Ho Hh He Ha m Hm.
  assert (Hp : forall v' w', push_post cf v l cap hf x w v' w' ->
    exists cap' hv', vec_owns cf v' (match w_err w' with None => l ++ [x] | Some _ => l end) cap' hv' /\ heap_is w' hv' hf).
  { intros v' w' (_ & _ & _ & [(-> & ?)|(e & -> & _ & ?)]); eauto. }
  destruct Hm as [-> | ->]; [eapply runs_push_back|eapply runs_emplace_back]; try done; by left.
Qed.
Print Assumptions C02_push_back_strong.

(** relocation of the old elements fails half way: the vector is unchanged *)
Example C02_example :
  let w := world1 [1; 2] 2 [EvOk 5; EvOk 1; EvFail 3] in
  vec_owns cfD (vec1 [1; 2] 2) [1; 2] 2 (heap1 [1; 2] 2) /\ heap_is w (heap1 [1; 2] 2) ∅ /\
  arg_outside ∅ (AVal 9) 9 /\
  runs (vec_push_back cfD (vec1 [1; 2] 2) (AVal 9)) w (fun v' w' =>
    v' = vec1 [1; 2] 2 /\ w_err w' = Some (EElem 3) /\ w_heap w' = w_heap w).
Proof.
  split; [apply vec1_owns; [simpl; lia|vm_compute; congruence]|]. split; [apply world1_is|].
  split; [done|]. compute_run.
Qed.

(** ** C03 *)

Theorem C03_insert V (cf : cfg V) v l cap hv hf i a x w :
  cfg_ok cf -> vec_owns cf v l cap hv -> heap_is w hv hf -> w_err w = None ->
  i <= length l -> arg_outside hf a x ->
  runs (vec_insert cf v (vec_pos v i) a) w (fun r w' =>
    match w_err w' with
    | None =>
        r.1 = vec_pos r.2 i /\
        exists cap' hv', vec_owns cf r.2 (take i l ++ [x] ++ drop i l) cap' hv' /\ heap_is w' hv' hf
    | Some e =>
        r.1 = vec_end r.2 /\
        (* allocation failed, or the old elements could not be copied into new storage,
           or nothing had to be shifted, or elements cannot fail *)
        (e = EBadAlloc \/ (cap = length l /\ m_start r.2 = m_start v) \/ i = length l \/ c_kind cf = Nothrow ->
         exists cap' hv', vec_owns cf r.2 l cap' hv' /\ heap_is w' hv' hf)
    end).
Proof.
  intros Hcf Ho Hh He Hi Ha. unfold vec_insert. eapply runs_insert_value; try done; [by left|].
  intros r w' (_ & _ & _ & [(-> & ? & ? & ? & ?)|(e & -> & ? & _ & Hp)]); [eauto|].
  split; [done|]. intros Hcase.
  destruct Hp as [Hp|(? & ? & Hst & code & -> & _)]; [done|].
  exfalso. destruct Hcase as [?|[[Hc Hs]|[?|?]]]; [done|by apply (Hst Hc)|lia|done].
Qed.
Print Assumptions C03_insert.

Example C03_example :
  let w := world1 [1; 2; 3] 4 [] in
  vec_owns cfD (vec1 [1; 2; 3] 4) [1; 2; 3] 4 (heap1 [1; 2; 3] 4) /\ heap_is w (heap1 [1; 2; 3] 4) ∅ /\
  runs (vec_insert cfD (vec1 [1; 2; 3] 4) (vec_pos (vec1 [1; 2; 3] 4) 1) (AVal 9)) w (fun r w' =>
    w_err w' = None /\ r = (Ptr 1 1, vec1 [1; 9; 2; 3] 4) /\ w_heap w' = heap1 [1; 9; 2; 3] 4).
Proof.
  split; [apply vec1_owns; [simpl; lia|vm_compute; congruence]|]. split; [apply world1_is|].
  compute_run.
Qed.

(** ** C04: false in general; true when element copies cannot fail, or at the end *)

Theorem C04_insert_destructible_partial V (cf : cfg V) v l cap hv hf i a x w :
  cfg_ok cf -> vec_owns cf v l cap hv -> heap_is w hv hf -> w_err w = None ->
  i <= length l -> arg_outside hf a x -> (c_kind cf = Nothrow \/ i = length l) ->
  runs (vec_insert cf v (vec_pos v i) a) w (fun r w' =>
    (exists l' cap' hv', vec_owns cf r.2 l' cap' hv' /\ heap_is w' hv' hf) /\
    runs (vec_destroy r.2) w' (fun _ w'' => w_heap w'' = hf)).
Proof.
  intros Hcf Ho Hh He Hi Ha Hk. eapply runs_mono; [by eapply C03_insert|].
  intros r w' Hp.
  assert (exists l' cap' hv', vec_owns cf r.2 l' cap' hv' /\ heap_is w' hv' hf) as (l' & cap' & hv' & Ho' & Hh').
  { cbv beta in Hp. destruct (w_err w') as [e|]; destruct Hp as [_ Hp].
    - destruct Hp as (? & ? & ?); [naive_solver|eauto].
    - destruct Hp as (? & ? & ?). eauto. }
  split; [by eauto|]. by eapply runs_vec_destroy.
Qed.
Print Assumptions C04_insert_destructible_partial.

(** Copying an element while shifting fails: the vector is left with a raw
    slot among its elements and its destructor has undefined behaviour. *)
Theorem C04_insert_destructible_refuted :
  exists (cf : cfg nat) v l cap i x w,
    cfg_ok cf /\ vec_owns cf v l cap (w_heap w) /\ w_err w = None /\ i <= length l /\
    runs (vec_insert cf v (vec_pos v i) (AVal x)) w (fun r w1 =>
      w_err w1 = Some (EElem 7) /\ faults (vec_destroy r.2) w1 FRaw).
Proof.
  exists cfD, (vec1 [1; 2] 3), [1; 2], 3, 0, 9, (world1 [1; 2] 3 [EvOk 1; EvFail 7]).
  split; [apply cfD_ok|].
  split; [apply vec1_owns; [simpl; lia|vm_compute; congruence]|].
  split; [done|]. split; [simpl; lia|]. compute_run.
Qed.
Print Assumptions C04_insert_destructible_refuted.

(** What can go wrong, exactly: an insertion that reports an error leaves the
    contents unchanged, or the vector damaged in one particular way ... *)
Theorem C04_insert_outcomes_partial V (cf : cfg V) v l cap hv hf i a x w :
  cfg_ok cf -> vec_owns cf v l cap hv -> heap_is w hv hf -> w_err w = None ->
  i <= length l -> arg_outside hf a x ->
  runs (vec_insert cf v (vec_pos v i) a) w (fun r w' => forall e, w_err w' = Some e ->
    (exists cap' hv', vec_owns cf r.2 l cap' hv' /\ heap_is w' hv' hf) \/
    (c_kind cf <> Nothrow /\ i < length l /\ (exists code, e = EElem code) /\
     exists hv', vec_damaged r.2 l i hv' /\ heap_is w' hv' hf)).
Proof.
  intros Hcf Ho Hh He Hi Ha. unfold vec_insert. eapply runs_insert_value; try done; [by left|].
  intros r w' (_ & _ & _ & [(-> & _)|(e & -> & _ & _ & Hp)]); [done|]. intros e' He'. injection He' as <-.
  destruct Hp as [Hp|(? & ? & _ & code & -> & b & cap' & j & live & Hs & Hf & Hen & Hj & Hc & Hpat & Hh')]; [by left|right].
  split; [done|]. split; [done|]. split; [by eexists|]. eexists. split; [|exact Hh'].
  exists b, cap', j, live. split_and!; try done; try lia.
  - intros k Hk. by rewrite Hpat, decide_True.
  - by rewrite Hpat, decide_False, decide_True by lia.
  - intros k Hk. rewrite Hpat, !decide_False by lia. f_equal. lia.
Qed.
Print Assumptions C04_insert_outcomes_partial.

(** ... and destroying a vector damaged in this way is always undefined
    behaviour *)
Theorem C04_damaged_destroy_refuted V v (l : list V) i hv hf w :
  vec_damaged v l i hv -> heap_is w hv hf -> vec_destroy v w = Fault FRaw.
Proof.
  intros (b & cap & j & live & Hs & Hf & _ & Hj & Hc & Hlo & Hno & _ & ->) [Hw _].
  assert (Hl : forall fuel o w live', o <= j -> j < o + fuel -> w_heap w !! b = Some (Block (m_allocator v) cap cap live') ->
    (forall k, o <= k <= j -> live' !! k = live !! k) -> destroy_loop fuel (Ptr b o) (Ptr b (length l)) w = Fault FRaw).
  { clear w Hw. induction fuel as [|fuel IH]; intros o w live' Ho Hfu Hb Hl; [lia|]. simpl. rewrite decide_False by (intros [=]; lia).
    destruct (decide (o = j)) as [->|].
    - unfold bind, destroy1, load_block, load, bind, get_heap. rewrite Hb. simpl. rewrite decide_True by lia. rewrite Hl, Hno by lia. done.
    - assert (is_Some (live' !! o)) as [y Hy].
      { rewrite Hl, Hlo by lia. apply lookup_lt_is_Some_2. lia. }
      assert (Hr : runs (do! destroy1 (V := V) (Ptr b o) in padd (Ptr b o) 1) w (fun p w' =>
        p = Ptr b (S o) /\ w_heap w' !! b = Some (Block (m_allocator v) cap cap (delete o live')))).
      { rbind. eapply runs_destroy1; [done|simpl; lia|done|]. eapply runs_padd; simpl; [by rewrite lookup_insert|simpl; lia|].
        rewrite lookup_insert. split; [f_equal; lia|done]. }
      destruct Hr as (p & w' & Hr & -> & Hb'). unfold bind in Hr |- *. destruct (destroy1 (Ptr b o) w) as [[] w1|]; [|done].
      rewrite Hr. eapply IH; [lia|lia|done|]. intros k Hk. rewrite lookup_delete_ne by lia. apply Hl. lia. }
  unfold vec_destroy, destroy. rewrite Hs, Hf. unfold bind. erewrite Hl; [done|lia|simpl; lia| |done].
  rewrite Hw. apply lookup_union_Some_l. apply lookup_singleton.
Qed.
Print Assumptions C04_damaged_destroy_refuted.

(** the second of two copies fails *)
Example C04_example :
  runs (vec_insert cfD (vec1 [1; 2] 3) (vec_pos (vec1 [1; 2] 3) 0) (AVal 9)) (world1 [1; 2] 3 [EvOk 1; EvFail 7]) (fun r w' =>
    w_err w' = Some (EElem 7) /\ w_heap w' = {[ 1%positive := Block 0 3 3 {[ 0 := 1; 2 := 2 ]} ]}).
Proof. compute_run. Qed.

(** ** C05: inserting an element of the same vector *)

(** With spare capacity: push_back of any element, insert of an element in
    front of the position. *)
Theorem C05_self_insert_partial V (cf : cfg V) v l cap hv hf i k x w :
  cfg_ok cf -> vec_owns cf v l cap hv -> heap_is w hv hf -> w_err w = None ->
  i <= length l -> length l < cap -> k < i -> l !! k = Some x ->
  (c_kind cf = Nothrow \/ i = length l) ->
  runs (vec_insert cf v (vec_pos v i) (ARef (vec_pos v k))) w (fun r w' => exists cap' hv',
    vec_owns cf r.2 (match w_err w' with None => take i l ++ [x] ++ drop i l | Some _ => l end) cap' hv' /\
    heap_is w' hv' hf).
Proof.
  intros Hcf Ho Hh He Hi Hcap Hk Hx Hkind. unfold vec_insert.
  eapply runs_insert_value; try done; [right; eauto 10|].
  intros r w' (_ & _ & _ & [(-> & ? & ? & ? & ?)|(e & -> & ? & _ & Hp)]); [eauto|].
  destruct Hp as [Hp|(? & ? & _)]; [done|]. exfalso. destruct Hkind; [done|lia].
Qed.
Print Assumptions C05_self_insert_partial.

Theorem C05_self_push_back_partial V (cf : cfg V) v l cap hv hf k x w :
  cfg_ok cf -> vec_owns cf v l cap hv -> heap_is w hv hf -> w_err w = None ->
  length l < cap -> l !! k = Some x ->
  runs (vec_push_back cf v (ARef (vec_pos v k))) w (fun v' w' => exists cap' hv',
    vec_owns cf v' (match w_err w' with None => l ++ [x] | Some _ => l end) cap' hv' /\ heap_is w' hv' hf).
Proof.
  intros Hcf Ho Hh He Hcap Hx. eapply runs_push_back; try done.
  { right. split; [done|]. exists k. split; [by eapply lookup_lt_Some|done]. }
  intros v' w' (_ & _ & _ & [(-> & ?)|(e & -> & _ & ?)]); eauto.
Qed.
Print Assumptions C05_self_push_back_partial.

Example C05_example :
  let v := vec1 [4; 5] 3 in
  vec_owns cfD v [4; 5] 3 (heap1 [4; 5] 3) /\
  runs (vec_push_back cfD v (ARef (vec_pos v 0))) (world1 [4; 5] 3 []) (fun v' w' =>
    v' = vec1 [4; 5; 4] 3 /\ w_heap w' = heap1 [4; 5; 4] 3).
Proof. split; [apply vec1_owns; [simpl; lia|vm_compute; congruence]|]. compute_run. Qed.

(** push_back(v[k]) that reallocates reads the freed old storage. *)
Theorem C05_self_push_back_refuted :
  exists (cf : cfg nat) v l cap k w,
    cfg_ok cf /\ vec_owns cf v l cap (w_heap w) /\ w_err w = None /\ k < length l /\
    vec_push_back cf v (ARef (vec_pos v k)) w = Fault FFreed.
Proof.
  exists cfN, (vec1 [4; 5] 2), [4; 5], 2, 0, (world1 [4; 5] 2 []).
  split; [apply cfN_ok|]. split; [apply vec1_owns; [simpl; lia|vm_compute; congruence]|].
  split; [done|]. split; [simpl; lia|]. vm_compute. done.
Qed.
Print Assumptions C05_self_push_back_refuted.

(** insert(pos, v[k]) with spare capacity and k behind pos inserts a wrong
    value (the element before v[k]). *)
Theorem C05_self_insert_refuted :
  exists (cf : cfg nat) v l cap i k x w,
    cfg_ok cf /\ c_kind cf = Nothrow /\ vec_owns cf v l cap (w_heap w) /\ w_err w = None /\
    i <= length l /\ length l < cap /\ l !! k = Some x /\
    runs (vec_insert cf v (vec_pos v i) (ARef (vec_pos v k))) w (fun r w' =>
      w_err w' = None /\ vec_owns cf r.2 [5; 4; 5; 6] 4 (w_heap w')) /\
    take i l ++ [x] ++ drop i l = [6; 4; 5; 6].
Proof.
  exists cfN, (vec1 [4; 5; 6] 4), [4; 5; 6], 4, 0, 2, 6, (world1 [4; 5; 6] 4 []).
  split; [apply cfN_ok|]. split; [done|].
  split; [apply vec1_owns; [simpl; lia|vm_compute; congruence]|].
  split; [done|]. split; [simpl; lia|]. split; [simpl; lia|]. split; [done|].
  split; [|done].
  eapply (runs_mono _ _ (fun r w' => w_err w' = None /\ r.2 = vec1 [5; 4; 5; 6] 4 /\ w_heap w' = heap1 [5; 4; 5; 6] 4)); [compute_run|].
  intros r w' (? & -> & ->). split; [done|].
  apply (vec1_owns _ [5; 4; 5; 6] 4); [simpl; lia|vm_compute; congruence].
Qed.
Print Assumptions C05_self_insert_refuted.

(** resize(n, v[k]) reads the freed old storage. *)
Theorem C05_self_resize_refuted :
  exists (cf : cfg nat) v l cap k n w,
    cfg_ok cf /\ vec_owns cf v l cap (w_heap w) /\ w_err w = None /\ k < length l /\ n <= cap /\
    vec_resize cf v n (ARef (vec_pos v k)) w = Fault FFreed.
Proof.
  exists cfN, (vec1 [4; 5] 4), [4; 5], 4, 0, 3, (world1 [4; 5] 4 []).
  split; [apply cfN_ok|]. split; [apply vec1_owns; [simpl; lia|vm_compute; congruence]|].
  split; [done|]. split; [simpl; lia|]. split; [lia|]. vm_compute. done.
Qed.
Print Assumptions C05_self_resize_refuted.

(** ** C06 *)

Theorem C06_reserve_partial V (cf : cfg V) v l cap hv hf n w :
  cfg_ok cf -> vec_owns cf v l cap hv -> heap_is w hv hf -> w_err w = None -> bytes_fit cf n ->
  runs (vec_reserve cf v n) w (fun v' w' =>
    (n <= cap -> v' = v /\ w' = w) /\
    match w_err w' with
    | None => exists hv', vec_owns cf v' l (cap `max` n) hv' /\ heap_is w' hv' hf
    | Some _ => v' = v /\ w_heap w' = w_heap w
    end).
Proof.
  intros Hcf Ho Hh He Hn. eapply runs_reserve; try done.
  - intros Hle. split; [done|]. rewrite He, Nat.max_l by lia. eauto.
  - intros v' b hv' w' Hlt _ _ _ Ho' Hh' He' _. rewrite He', Nat.max_r by lia. split; [lia|]. eauto.
  - intros w' e Hlt Hw' He' _. rewrite He'. split; [lia|done].
Qed.
Print Assumptions C06_reserve_partial.

Example C06_example :
  runs (vec_reserve cfD (vec1 [4; 5] 2) 9) (world1 [4; 5] 2 [EvOk 6]) (fun v w' =>
    v = Vec 0 (Ptr 6 0) (Ptr 6 2) (Ptr 6 9) /\
    w_heap w' = {[ 6%positive := Block 0 9 9 (map_seq 0 [4; 5]) ]}).
Proof. compute_run. Qed.

Lemma big_count : exists n, (N.of_nat n = 2^61 + 1)%N.
Proof. exists (N.to_nat (2^61 + 1)). apply N2Nat.id. Qed.

(** n * sizeof(T) is computed without an overflow check: reserve(n) obtains
    storage for fewer than n elements and then computes a pointer outside it
    (the vector would report capacity() = n). *)
Theorem C06_reserve_overflow_refuted :
  exists (cf : cfg nat) n w,
    cfg_ok cf /\ fits n /\ w_err w = None /\ vec_reserve cf (vec_new 0) n w = Fault FBounds.
Proof.
  destruct big_count as [n Hn].
  exists cfD, n, (w_start []). split; [apply cfD_ok|].
  unfold fits. rewrite Hn. split; [done|]. split; [done|].
  apply reserve_overflow; try (unfold fits; rewrite Hn); vm_compute; congruence.
Qed.
Print Assumptions C06_reserve_overflow_refuted.

(** ** C07 *)

Theorem C07_growth V (cf : cfg V) al xs w :
  cfg_ok cf -> growth_ok cf ->
  runs (exec_ops cf (map OpPush xs) (vec_new al)) w (fun r w' =>
    Forall (fun e => e = None) r.2 ->
    exists k cap hv,
      w_allocs w' = w_allocs w + k /\
      (* k allocations were needed: (3/2)^(k-1) <= (n+1)/2 *)
      (k = 0 \/ 2 * 3 ^ (k - 1) <= 2 ^ (k - 1) * (length xs + 1)) /\
      vec_owns cf r.1 xs cap hv /\ w_heap w' = hv ∪ w_heap w /\
      (* the capacity is at least 2 * (3/2)^k - 2 *)
      2 * 3 ^ k <= 2 ^ k * (cap + 2)).
Proof.
  intros Hcf Hg. eapply (runs_push_all cf xs (vec_new al) [] 0 ∅ (w_heap w) w 0); try done.
  - apply owns_new.
  - by apply heap_is_empty.
  - unfold growth_inv. simpl. lia.
  - by left.
  - intros v' es w' H HF. destruct (H HF) as (k & cap & hv & Ho & [Hw _] & Hk & Hi & Hb).
    exists k, cap, hv. split; [lia|]. done.
Qed.
Print Assumptions C07_growth.

Example C07_example :
  runs (exec_ops cfD (map OpPush (seq 0 20)) (vec_new 0)) (w_start []) (fun r w' =>
    Forall (fun e => e = None) r.2 /\ w_allocs w' = 6).
Proof. compute_run. Qed.

(** ** C08 *)

Theorem C08_resize V (cf : cfg V) v l cap hv hf n a x w :
  cfg_ok cf -> growth_ok cf -> vec_owns cf v l cap hv -> heap_is w hv hf -> w_err w = None ->
  bytes_fit cf n -> arg_outside hf a x ->
  runs (vec_resize cf v n a) w (fun v' w' => exists l' cap' hv',
    vec_owns cf v' l' cap' hv' /\ heap_is w' hv' hf /\
    (if decide (n <= length l)
     then w_err w' = None /\ l' = take n l /\ cap' = cap
     else match w_err w' with
          | None => l' = l ++ replicate (n - length l) x
          | Some _ => exists k, k < n - length l /\ l' = l ++ replicate k x
          end)).
Proof.
  intros Hcf Hg Ho Hh He Hn Ha. eapply runs_resize; try done.
  - right. by eapply growth_fits.
  - intros v' hv' w' Hle _ _ Ho' Hh' He' _ _. eexists _, _, _. split; [done|]. split; [done|].
    by rewrite decide_True.
  - intros v' cap' hv' w' k Hlt _ Hk Ho' Hh' _ Hr. eexists _, _, _. split; [done|]. split; [done|].
    rewrite decide_False by lia. destruct Hr as [(-> & -> & _)|(e & -> & ?)]; eauto.
Qed.
Print Assumptions C08_resize.

Example C08_example :
  runs (vec_resize cfD (vec1 [4; 5] 2) 5 (AVal 1))
    (world1 [4; 5] 2 [EvOk 6; EvOk 1; EvOk 1; EvOk 1; EvFail 2]) (fun v w' =>
    w_err w' = Some (EElem 2) /\ v = Vec 0 (Ptr 6 0) (Ptr 6 3) (Ptr 6 5) /\
    w_heap w' = {[ 6%positive := Block 0 5 5 (map_seq 0 [4; 5; 1]) ]}).
Proof. compute_run. Qed.

(** ** C09: no reallocation within the capacity: push_back and insert *)

Theorem C09_reserved_push_insert_partial V (cf : cfg V) v l cap hv hf i a x w :
  cfg_ok cf -> vec_owns cf v l cap hv -> heap_is w hv hf -> w_err w = None ->
  i <= length l -> arg_outside hf a x -> length l < cap ->
  runs (vec_insert cf v (vec_pos v i) a) w (fun r w' =>
    w_allocs w' = w_allocs w /\ m_start r.2 = m_start v /\
    w_err w' <> Some EBadAlloc /\ w_err w' <> Some ELength /\
    (c_kind cf = Nothrow -> w_err w' = None) /\
    (w_err w' = None -> exists hv', vec_owns cf r.2 (take i l ++ [x] ++ drop i l) cap hv' /\ heap_is w' hv' hf)) /\
  runs (vec_push_back cf v a) w (fun v' w' =>
    w_allocs w' = w_allocs w /\ m_start v' = m_start v /\
    w_err w' <> Some EBadAlloc /\ w_err w' <> Some ELength /\
    (c_kind cf = Nothrow -> w_err w' = None) /\
    (w_err w' = None -> exists hv', vec_owns cf v' (l ++ [x]) cap hv' /\ heap_is w' hv' hf)).
Proof.
  intros Hcf Ho Hh He Hi Ha Hlt. split.
  - eapply runs_insert_value; try done; [by left|].
    intros r w' (_ & Hna & Hst & Hp). rewrite decide_False in Hna by lia. rewrite decide_False in Hp by lia.
    split; [lia|]. split; [apply Hst; lia|].
    destruct Hp as [(-> & _ & ?)|(e & -> & _ & Hee & _)]; [done|].
    destruct Hee as [? [code ->]]; [lia|]. done.
  - eapply runs_push_back; try done; [by left|].
    intros r w' (_ & Hna & Hst & Hp). rewrite decide_False in Hna by lia. rewrite decide_False in Hp by lia.
    split; [lia|]. split; [apply Hst; lia|].
    destruct Hp as [(-> & ?)|(e & -> & Hee & _)]; [done|].
    destruct Hee as [? [code ->]]; [lia|]. done.
Qed.
Print Assumptions C09_reserved_push_insert_partial.

(** After a successful reserve(n), any sequence of appends that keeps the size
    within n performs no allocation. *)
Theorem C09_reserve_then_push_partial V (cf : cfg V) v l cap hv hf n xs w :
  cfg_ok cf -> vec_owns cf v l cap hv -> heap_is w hv hf -> w_err w = None -> bytes_fit cf n ->
  length l + length xs <= n ->
  runs (vec_reserve cf v n) w (fun v1 w1 => w_err w1 = None ->
    runs (exec_ops cf (map OpPush xs) v1) w1 (fun r w2 =>
      w_allocs w2 = w_allocs w1 /\ m_start r.1 = m_start v1)).
Proof.
  intros Hcf Ho Hh He Hn Hlen. eapply runs_mono; [by eapply C06_reserve_partial|].
  intros v1 w1 [_ Hp] He1. rewrite He1 in Hp. destruct Hp as (hv1 & Ho1 & Hh1).
  assert (Hroom : length l + length xs <= cap `max` n) by lia.
  remember (cap `max` n) as c eqn:Hc. clear Hc Ho Hh He Hlen Hn He1 w.
  revert v1 l hv1 w1 Ho1 Hh1 Hroom. induction xs as [|x xs IH]; intros v1 l hv1 w1 Ho1 Hh1 Hroom.
  - by apply runs_ret.
  - simpl in Hroom. simpl. rbind. apply runs_put_err. rbind. unfold exec_op.
    eapply runs_push_back; [done..|by left|].
    intros v2 w2 (_ & Hna & Hst & Hp). simpl in *.
    rewrite decide_False in Hna by lia. rewrite decide_False in Hp by lia.
    destruct Hst as [Hst Hen]; [lia|].
    rbind. apply runs_get_err. rbind.
    assert (exists l2 hv2, vec_owns cf v2 l2 c hv2 /\ heap_is w2 hv2 hf /\ length l2 <= S (length l)) as (l2 & hv2 & Ho2 & Hh2 & Hl2).
    { destruct Hp as [(_ & hv2 & ? & ?)|(e & _ & _ & cap2 & hv2 & Ho2 & Hh2)].
      - exists (l ++ [x]), hv2. split; [done|]. split; [done|]. rewrite app_length. simpl. lia.
      - exists l, hv2. split; [|split; [done|lia]].
        (* the capacity pointer is unchanged as well *)
        assert (cap2 = c) as ->; [|done].
        destruct Ho1 as [(Hs1 & _ & He1 & _ & Hc1 & _)|(b1 & Hs1 & _ & He1 & _)];
          destruct Ho2 as [(Hs2 & _ & He2 & _ & Hc2 & _)|(b2 & Hs2 & _ & He2 & _)]; congruence. }
    eapply runs_mono; [eapply (IH v2 l2); [done|done|lia]|].
    intros r w3 [Hna3 Hst3]. apply runs_ret. simpl. split; [lia|congruence].
Qed.
Print Assumptions C09_reserve_then_push_partial.


Example C09_example :
  runs (vec_reserve cfD (vec_new 0) 3) (w_start []) (fun v1 w1 =>
    w_err w1 = None /\ w_allocs w1 = 1 /\
    match exec_ops cfD (map OpPush [1; 2; 3]) v1 w1 with
    | Done r w2 => r.2 = [None; None; None] /\ w_allocs w2 = 1
    | Fault _ => False
    end).
Proof. eexists _, _. split; [reflexivity|]. vm_compute. done. Qed.

(** resize() within the capacity allocates again, moves the elements, and can
    fail with bad_alloc. *)
Theorem C09_resize_within_capacity_refuted :
  exists (cf : cfg nat) v l cap n x w,
    cfg_ok cf /\ growth_ok cf /\ vec_owns cf v l cap (w_heap w) /\ w_err w = None /\
    length l < n <= cap /\
    runs (vec_resize cf v n (AVal x)) w (fun v' w' => w_allocs w' = S (w_allocs w) /\ w_err w' = Some EBadAlloc).
Proof.
  exists cfN, (vec1 [4; 5] 4), [4; 5], 4, 3, 0, (world1 [4; 5] 4 [EvFail 0]).
  split; [apply cfN_ok|]. split; [apply cfN_ok|].
  split; [apply vec1_owns; [simpl; lia|vm_compute; congruence]|].
  split; [done|]. split; [simpl; lia|]. compute_run.
Qed.
Print Assumptions C09_resize_within_capacity_refuted.

(** ** C10 *)

(** assign(n, x): x may be an element of the destination itself. *)
Theorem C10_assign_n V (cf : cfg V) v l cap hv hf n a x w :
  cfg_ok cf -> vec_owns cf v l cap hv -> heap_is w hv hf -> w_err w = None ->
  bytes_fit cf n -> arg_outside (hv ∪ hf) a x ->
  runs (vec_assign_n cf v n a) w (fun v' w' => exists k cap' hv',
    vec_owns cf v' (replicate k x) cap' hv' /\ heap_is w' hv' hf /\
    match w_err w' with None => k = n | Some _ => k < n \/ n = 0 /\ k = 0 end).
Proof.
  intros Hcf Ho Hh He Hn Ha. eapply runs_assign_n; try done.
  intros v' cap' hv' w' k _ Hk Ho' Hh' [(-> & ->)|(e & -> & ?)]; eexists _, _, _; split_and!; try done; lia.
Qed.
Print Assumptions C10_assign_n.

(** assign(first, last) over an input range yielding [args]. *)
Theorem C10_assign_input V (cf : cfg V) v l cap hv hf args xs w :
  cfg_ok cf -> vec_owns cf v l cap hv -> heap_is w hv hf -> w_err w = None ->
  Forall2 (arg_outside (hv ∪ hf)) args xs ->
  runs (vec_assign_input cf v args) w (fun v' w' => exists k cap' hv',
    vec_owns cf v' (take k xs) cap' hv' /\ heap_is w' hv' hf /\
    match w_err w' with None => k = length xs | Some _ => k < length xs end).
Proof.
  intros Hcf Ho Hh He Ha. eapply runs_assign_input; try done.
  intros v' cap' hv' w' k _ Hk Ho' Hh' [(-> & ->)|(e & -> & ?)]; eexists _, _, _; split_and!; done.
Qed.
Print Assumptions C10_assign_input.

(** assign(o.begin()+i, o.begin()+j) where o is any vector, also the destination. *)
Theorem C10_assign_range V (cf : cfg V) v l cap hv o lo capo ho hf i j w :
  cfg_ok cf -> vec_owns cf v l cap hv -> heap_is w hv hf -> w_err w = None ->
  vec_owns cf o lo capo ho -> (ho = hv \/ ho ⊆ hf) -> i <= j -> j <= length lo ->
  runs (vec_assign_ptrs cf v (vec_pos o i) (vec_pos o j)) w (fun v' w' => exists k cap' hv',
    vec_owns cf v' (take k (drop i lo)) cap' hv' /\ heap_is w' hv' hf /\
    match w_err w' with None => k = j - i | Some _ => k < j - i \/ i = j /\ k = 0 end).
Proof.
  intros Hcf Ho Hh He Hoo Hsub Hij Hj.
  assert (ho ⊆ hv ∪ hf).
  { destruct Hh as [_ Hd]. destruct Hsub as [->|Hs]; [by apply map_union_subseteq_l|].
    etrans; [exact Hs|]. by apply map_union_subseteq_r. }
  eapply runs_assign_ptrs; try done.
  intros v' cap' hv' w' k _ Hk Ho' Hh' [(-> & ->)|(e & -> & ?)]; eexists _, _, _; split_and!; try done; lia.
Qed.
Print Assumptions C10_assign_range.

(** copy(other), with other a different vector (left untouched) or the same. *)
Theorem C10_copy V (cf : cfg V) v l cap hv o lo capo ho hf w :
  cfg_ok cf -> vec_owns cf v l cap hv -> heap_is w hv hf -> w_err w = None ->
  vec_owns cf o lo capo ho -> (ho = hv \/ ho ⊆ hf) ->
  runs (vec_copy cf v o) w (fun v' w' => exists k cap' hv',
    vec_owns cf v' (take k lo) cap' hv' /\ heap_is w' hv' hf /\
    (w_err w' = None -> take k lo = lo)).
Proof.
  intros Hcf Ho Hh He Hoo Hsub.
  assert (ho ⊆ hv ∪ hf).
  { destruct Hh as [_ Hd]. destruct Hsub as [->|Hs]; [by apply map_union_subseteq_l|].
    etrans; [exact Hs|]. by apply map_union_subseteq_r. }
  eapply runs_vec_copy; try done.
  intros v' cap' hv' w' k _ Hk Ho' Hh' [(-> & ->)|(e & -> & ?)]; eexists _, _, _; split_and!; try done.
  intros _. by apply take_ge.
Qed.
Print Assumptions C10_copy.

(** assign from its own elements 1..3, and from one of its own elements *)
Example C10_example :
  let v := vec1 [4; 5; 6] 3 in
  vec_owns cfD v [4; 5; 6] 3 (heap1 [4; 5; 6] 3) /\
  runs (vec_assign_ptrs cfD v (vec_pos v 1) (vec_pos v 3)) (world1 [4; 5; 6] 3 [EvOk 7]) (fun v' w' =>
    v' = Vec 0 (Ptr 7 0) (Ptr 7 2) (Ptr 7 2) /\ w_err w' = None /\
    w_heap w' = {[ 7%positive := Block 0 2 2 (map_seq 0 [5; 6]) ]}) /\
  runs (vec_assign_n cfD v 2 (ARef (vec_pos v 2))) (world1 [4; 5; 6] 3 [EvOk 7]) (fun v' w' =>
    v' = Vec 0 (Ptr 7 0) (Ptr 7 2) (Ptr 7 2) /\ w_err w' = None /\
    w_heap w' = {[ 7%positive := Block 0 2 2 (map_seq 0 [6; 6]) ]}).
Proof.
  split; [apply vec1_owns; [simpl; lia|vm_compute; congruence]|]. split; compute_run.
Qed.

(** ** C11: exception-enabled flavour; [inr e] / [Some e]: e is thrown *)

Theorem C11_copy_ctor V (cf : cfg V) o lo capo ho hf w :
  cfg_ok cf -> vec_owns cf o lo capo ho -> heap_is w ho hf ->
  runs (hvec_copy_ctor cf o) w (fun r w' =>
    match r with
    | inl v' => exists cap' hv', vec_owns cf v' lo cap' hv' /\ heap_is w' hv' (ho ∪ hf)
    | inr _ => w_heap w' = w_heap w
    end).
Proof.
  intros Hcf Ho Hh. eapply runs_hvec_copy_ctor; try done. intros. eauto.
Qed.
Print Assumptions C11_copy_ctor.

Theorem C11_copy_assign V (cf : cfg V) v l cap hv o lo capo ho hf w :
  cfg_ok cf -> vec_owns cf v l cap hv -> heap_is w hv hf ->
  vec_owns cf o lo capo ho -> (ho = hv \/ ho ⊆ hf) ->
  runs (hvec_copy_assign cf v o) w (fun r w' =>
    match r with
    | (v', None) => exists cap' hv', vec_owns cf v' lo cap' hv' /\ heap_is w' hv' hf
    | (v', Some _) => v' = v /\ w_heap w' = w_heap w
    end).
Proof.
  intros Hcf Ho Hh Hoo Hsub.
  assert (ho ⊆ hv ∪ hf).
  { destruct Hh as [_ Hd]. destruct Hsub as [->|Hs]; [by apply map_union_subseteq_l|].
    etrans; [exact Hs|]. by apply map_union_subseteq_r. }
  eapply runs_hvec_copy_assign; try done. intros. eauto.
Qed.
Print Assumptions C11_copy_assign.

Theorem C11_push_back V (cf : cfg V) v l cap hv hf a x w :
  cfg_ok cf -> vec_owns cf v l cap hv -> heap_is w hv hf -> arg_outside hf a x ->
  runs (hvec_push_back cf v a) w (fun r w' => exists cap' hv',
    vec_owns cf r.1 (match r.2 with None => l ++ [x] | Some _ => l end) cap' hv' /\ heap_is w' hv' hf).
Proof.
  intros Hcf Ho Hh Ha. eapply runs_hvec_push_back; try done; [by left|..]; intros; simpl; eauto.
Qed.
Print Assumptions C11_push_back.

Example C11_example :
  let v := vec1 [4; 5; 6] 3 in
  runs (hvec_copy_ctor cfD v) (world1 [4; 5; 6] 3 [EvOk 7; EvOk 1; EvFail 2]) (fun r w' =>
    r = inr (EElem 2) /\ w_heap w' = heap1 [4; 5; 6] 3) /\
  runs (hvec_copy_assign cfD v v) (world1 [4; 5; 6] 3 [EvOk 7]) (fun r w' =>
    r = (Vec 0 (Ptr 7 0) (Ptr 7 3) (Ptr 7 3), None) /\
    w_heap w' = {[ 7%positive := Block 0 3 3 (map_seq 0 [4; 5; 6]) ]}).
Proof. split; compute_run. Qed.

(** ** C12: moves.  Move construction and swap are pure pointer exchanges: in
    the model they do not even touch the machine state. *)

Theorem C12_move_ctor V (cf : cfg V) o l cap h :
  vec_owns cf o l cap h ->
  let '(v', o') := vec_move_ctor o in
  vec_owns cf v' l cap h /\ vec_owns cf o' [] 0 ∅ /\ (forall i, vec_pos v' i = vec_pos o i).
Proof.
  intros Ho. unfold vec_move_ctor, swap_data. simpl. split; [by apply owns_move|]. split; [by left|done].
Qed.
Print Assumptions C12_move_ctor.

Theorem C12_swap V (cf : cfg V) v l cap hv o lo capo ho :
  vec_owns cf v l cap hv -> vec_owns cf o lo capo ho ->
  let '(v', o') := vec_swap v o in
  vec_owns cf v' lo capo ho /\ vec_owns cf o' l cap hv /\
  (forall i, vec_pos v' i = vec_pos o i) /\ (forall i, vec_pos o' i = vec_pos v i).
Proof.
  intros Ho Hoo. unfold vec_swap, swap_data. simpl.
  split; [by apply owns_move|]. split; [by apply owns_move|]. done.
Qed.
Print Assumptions C12_swap.

(** Move assignment between vectors with equal allocators (all of the
    library's own allocators are equal). *)
Theorem C12_move_assign_partial V (cf : cfg V) v l cap hv o lo capo ho hf w :
  vec_owns cf v l cap hv -> vec_owns cf o lo capo ho -> m_allocator v = m_allocator o ->
  heap_is w hv (ho ∪ hf) -> ho ##ₘ hf ->
  runs (vec_move_assign v o) w (fun r w' =>
    vec_owns cf r.1 lo capo ho /\ vec_owns cf r.2 [] 0 ∅ /\ (forall i, vec_pos r.1 i = vec_pos o i) /\
    heap_is w' ho hf /\ w_err w' = w_err w /\ w_allocs w' = w_allocs w /\ w_ctors w' = w_ctors w).
Proof.
  intros Ho Hoo Hal Hh Hd. eapply runs_move_assign; try done.
  intros v' o' w' Hv' Ho' Hs _ _ ->. simpl. split; [done|]. split; [done|]. split; [|done].
  intros i. unfold vec_pos. by rewrite Hs.
Qed.
Print Assumptions C12_move_assign_partial.

Theorem C12_self_move V (cf : cfg V) v l cap hv hf w :
  vec_owns cf v l cap hv -> heap_is w hv hf ->
  runs (vec_move_assign_self v) w (fun v' w' => vec_owns cf v' [] 0 ∅ /\ w_heap w' = hf).
Proof.
  intros Ho Hh. eapply runs_move_assign_self; try done. intros v' w' ? _ ->. done.
Qed.
Print Assumptions C12_self_move.

(** With stateful allocators move assignment keeps the destination's allocator
    with the source's storage: destruction returns it to the wrong allocator. *)
Theorem C12_move_assign_allocator_refuted :
  exists (cf : cfg nat) v o lo capo ho w,
    cfg_ok cf /\ vec_owns cf v [] 0 ∅ /\ vec_owns cf o lo capo ho /\ w_heap w = ho /\
    runs (vec_move_assign v o) w (fun r w' => faults (vec_destroy r.1) w' FAlloc).
Proof.
  exists cfD, (vec_new 1), (vec1 [4] 2), [4], 2, (heap1 [4] 2), (world1 [4] 2 []).
  split; [apply cfD_ok|]. split; [apply owns_new|].
  split; [apply vec1_owns; [simpl; lia|vm_compute; congruence]|]. split; [done|]. compute_run.
Qed.
Print Assumptions C12_move_assign_allocator_refuted.

Example C12_example :
  let o := Vec 0 (Ptr 2 0) (Ptr 2 1) (Ptr 2 1) in
  let ho : gmap addr (vblock nat) := {[ 2%positive := Block 0 1 1 (map_seq 0 [8]) ]} in
  vec_owns cfD o [8] 1 ho /\
  runs (vec_move_assign (vec1 [4; 5] 2) o) (World (heap1 [4; 5] 2 ∪ ho) [] None 0 0) (fun r w' =>
    r = (o, vec_new 0) /\ w_heap w' = ho).
Proof.
  split; [|compute_run]. right. exists 2%positive. split_and!; try done.
Qed.

(** ** C13 *)

Theorem C13_no_leak V (cf : cfg V) al ops w :
  cfg_ok cf -> growth_ok cf -> Forall (vop_legal cf) ops ->
  runs (let! r := exec_ops cf ops (vec_new al) in vec_destroy r.1) w (fun _ w' => w_heap w' = w_heap w).
Proof.
  intros Hcf Hg Hl. rbind. eapply runs_exec_ops; [done..|apply owns_new|by apply heap_is_empty|].
  intros v' es l' cap' hv' w' Ho Hh Hs. by eapply runs_vec_destroy.
Qed.
Print Assumptions C13_no_leak.

Example C13_example :
  runs (let! r := exec_ops cfD [OpPush 1; OpPush 2; OpResize 4 7; OpAssignRange [1; 2; 3]] (vec_new 0) in vec_destroy r.1)
    (w_start [EvOk 4; EvOk 4; EvOk 9; EvFail 0; EvOk 4; EvOk 3; EvFail 3]) (fun _ w' => w_heap w' = ∅).
Proof. compute_run. Qed.

(** ** C14 *)

Theorem C14_no_move V (cf : cfg V) v l cap hv hf a x w :
  cfg_ok cf -> vec_owns cf v l cap hv -> heap_is w hv hf -> w_err w = None -> arg_outside hf a x ->
  length l < cap ->
  runs (vec_push_back cf v a) w (fun v' w' =>
    w_allocs w' = w_allocs w /\ (forall i, vec_pos v' i = vec_pos v i) /\
    (forall i y, l !! i = Some y -> runs (read (vec_pos v i)) w' (fun z _ => z = y))).
Proof.
  intros Hcf Ho Hh He Ha Hlt. eapply runs_push_back; try done; [by left|].
  intros v' w' (_ & Hna & Hst & Hp). rewrite decide_False in Hna by lia. rewrite decide_False in Hp by lia.
  destruct Hst as [Hst _]; [lia|].
  assert (Hpos : forall i, vec_pos v' i = vec_pos v i) by (intros i; unfold vec_pos; by rewrite Hst).
  split; [lia|]. split; [done|]. intros i y Hi. rewrite <-Hpos.
  assert (exists l' cap' hv', vec_owns cf v' l' cap' hv' /\ heap_is w' hv' hf /\ l' !! i = Some y) as (l' & cap' & hv' & Ho' & Hh' & Hi').
  { destruct Hp as [(_ & hv' & ? & ?)|(e & _ & _ & cap' & hv' & ? & ?)].
    - exists (l ++ [x]), cap, hv'. split; [done|]. split; [done|]. by apply lookup_app_l_Some.
    - by exists l, cap', hv'. }
  by eapply runs_read_elem; [exact Ho'|by eapply heap_sub|exact Hi'|].
Qed.
Print Assumptions C14_no_move.

Example C14_example :
  runs (vec_push_back cfD (vec1 [4] 2) (AVal 5)) (world1 [4] 2 []) (fun v' w' =>
    v' = vec1 [4; 5] 2 /\ w_allocs w' = 0 /\ w_heap w' = heap1 [4; 5] 2).
Proof. compute_run. Qed.

(** ** C15 *)

Theorem C15_equality V (cf : cfg V) (eqv : V -> V -> bool) v l capv hv o lo capo ho w :
  vec_owns cf v l capv hv -> vec_owns cf o lo capo ho -> hv ⊆ w_heap w -> ho ⊆ w_heap w ->
  exists b, vec_equal eqv v o w = Done b w /\
    (b = true <-> length l = length lo /\ forall i x y, l !! i = Some x -> lo !! i = Some y -> eqv x y = true).
Proof.
  intros Ho Hoo Hsv Hso.
  destruct (runs_vec_equal cf eqv v l capv hv o lo capo ho w
    (fun b w' => w' = w /\ (b = true <-> Forall2 (fun x y => eqv x y = true) l lo)))
    as (b & w' & Hr & -> & Hb); try done.
  exists b. split; [done|]. by rewrite Hb, Forall2_same_length_lookup.
Qed.
Print Assumptions C15_equality.

Example C15_example :
  let o := Vec 0 (Ptr 2 0) (Ptr 2 2) (Ptr 2 2) in
  let ho : gmap addr (vblock nat) := {[ 2%positive := Block 0 2 2 (map_seq 0 [4; 5]) ]} in
  runs (vec_equal Nat.eqb (vec1 [4; 5] 3) o) (World (heap1 [4; 5] 3 ∪ ho) [] None 0 0) (fun b _ => b = true) /\
  runs (vec_equal Nat.eqb (vec1 [4; 6] 3) o) (World (heap1 [4; 6] 3 ∪ ho) [] None 0 0) (fun b _ => b = false).
Proof. split; compute_run. Qed.

(** ** C16: with a clear error object nothing leaks (C13); with one that
    already holds an error, storage leaks. *)

Theorem C16_clear_err_no_leak_partial V (cf : cfg V) op v l cap hv hf w :
  cfg_ok cf -> growth_ok cf -> vop_legal cf op ->
  vec_owns cf v l cap hv -> heap_is w hv hf -> w_err w = None ->
  runs (let! v' := exec_op cf op v in vec_destroy v') w (fun _ w' => w_heap w' = hf).
Proof.
  intros Hcf Hg Hl Ho Hh He. rbind. eapply runs_exec_op; try done.
  intros v' l' cap' hv' w' Ho' Hh' _. by eapply runs_vec_destroy.
Qed.
Print Assumptions C16_clear_err_no_leak_partial.

Theorem C16_stale_err_leaks_refuted :
  exists (cf : cfg nat) w e,
    cfg_ok cf /\ w_heap w = ∅ /\ w_err w = Some e /\
    runs (let! v := vec_push_back cf (vec_new 0) (AVal 5) in vec_destroy v) w (fun _ w' =>
      w_heap w' = {[ 1%positive := Block 0 1 1 ∅ ]}).
Proof.
  exists cfN, (World ∅ [] (Some EBadAlloc) 0 0), EBadAlloc.
  split; [apply cfN_ok|]. split; [done|]. split; [done|]. compute_run.
Qed.
Print Assumptions C16_stale_err_leaks_refuted.

(** ** C51-C53: construction, uninitialised_copy, allocation *)

(** C51: an element is constructed at a raw slot, or the slot stays raw. *)
Theorem C51_construct V (cf : cfg V) w b o a v blk hf :
  w_err w = None -> heap_is w {[b := blk]} hf -> arg_outside hf a v ->
  o < b_room blk -> b_live blk !! o = None ->
  runs (construct_at cf (Ptr b o) a) w (fun _ w' =>
    match w_err w' with
    | None => w_heap w' = <[b := Block (b_alloc blk) (b_req blk) (b_room blk) (<[o := v]> (b_live blk))]> (w_heap w)
    | Some e => w_heap w' = w_heap w /\ c_kind cf <> Nothrow /\ exists code, e = EElem code
    end).
Proof.
  intros He [Hw Hd] Ha Ho Hl. eapply runs_construct_at; try done.
  - by eapply arg_outside_val.
  - by rewrite Hw, <-insert_union_singleton_l, lookup_insert.
  - intros orc code Hk. simpl. eauto.
Qed.
Print Assumptions C51_construct.

Definition cfT : cfg nat := Cfg true 8 (2^62) 0 TwoPhase 0.
(** two-phase: default construction succeeds, initialisation fails *)
Example C51_example :
  runs (construct_at cfT (Ptr 1 0) (AVal 5)) (World {[ 1%positive := Block 0 1 1 ∅ ]} [EvOk 1; EvFail 4] None 0 0)
    (fun _ w' => w_err w' = Some (EElem 4) /\ w_heap w' = {[ 1%positive := Block 0 1 1 ∅ ]}).
Proof. compute_run. Qed.

(** C52 *)
Theorem C52_uninitialised_copy V (cf : cfg V) w bs bd src al n l hf :
  w_err w = None -> bs <> bd ->
  w_heap w = <[bd := Block al n n ∅]> hf -> hf !! bs = Some src ->
  length l <= n -> length l <= b_room src ->
  (forall k x, l !! k = Some x -> b_live src !! k = Some x) ->
  runs (uninitialised_copy cf (Ptr bs 0) (Ptr bs (length l)) (Ptr bd 0)) w (fun p w' =>
    match w_err w' with
    | None => p = Ptr bd (length l) /\ w_heap w' = <[bd := Block al n n (map_seq 0 l)]> hf
    | Some _ => w_heap w' = w_heap w
    end).
Proof.
  intros He Hne Hw Hs Hn Hr Hl. eapply (runs_uninit_copy cf w bs bd src al n n l); try done.
  - by rewrite Hw, lookup_insert_ne.
  - by rewrite Hw, lookup_insert.
  - intros orc nc. simpl. by rewrite Hw, insert_insert.
  - intros p orc code nc. simpl. by rewrite Hw, insert_insert.
Qed.
Print Assumptions C52_uninitialised_copy.

Example C52_example :
  let w := World (<[ 2%positive := Block 0 3 3 ∅ ]> (heap1 [4; 5; 6] 3)) [EvOk 1; EvOk 1; EvFail 3] None 0 0 in
  runs (uninitialised_copy cfD (Ptr 1 0) (Ptr 1 3) (Ptr 2 0)) w (fun _ w' =>
    w_err w' = Some (EElem 3) /\ w_heap w' = w_heap w).
Proof. cbv zeta. compute_run. Qed.

(** C53 *)
Theorem C53_allocate_partial V (cf : cfg V) al n w :
  cfg_ok cf -> bytes_fit cf n ->
  runs (allocate cf al n) w (fun p w' =>
    (exists b, p = Ptr b 0 /\ w_heap w !! b = None /\
       w_heap w' = <[b := Block al n n ∅]> (w_heap w) /\ w_err w' = w_err w)
    \/ (p = Null /\ w_heap w' = w_heap w /\ w_err w' = Some EBadAlloc)).
Proof.
  intros Hcf Hn. eapply runs_allocate; try done.
  - intros b orc Hb _. left. simpl. eauto.
  - intros orc. by right.
Qed.
Print Assumptions C53_allocate_partial.

Theorem C53_allocate_overflow_refuted :
  exists (cf : cfg nat) n w b room w',
    cfg_ok cf /\ fits n /\ w_err w = None /\
    allocate cf 0 n w = Done (Ptr b 0) w' /\ w_err w' = None /\
    w_heap w' !! b = Some (Block 0 n room ∅) /\ room < n.
Proof.
  destruct big_count as [n Hn].
  destruct (allocate_overflow cfD 0 n (w_start [])) as (b & room & w' & Ha & Hr & Hh & _ & He);
    [done|rewrite Hn; vm_compute; congruence|rewrite Hn; vm_compute; congruence|done|].
  exists cfD, n, (w_start []), b, room, w'.
  split; [apply cfD_ok|]. unfold fits. rewrite Hn. split; [done|]. split; [done|]. split; [done|].
  split; [done|]. split; [|done]. by rewrite Hh, lookup_insert.
Qed.
Print Assumptions C53_allocate_overflow_refuted.

Example C53_example :
  runs (allocate cfD 0 4) (w_start [EvOk 9]) (fun p w' =>
    p = Ptr 9 0 /\ w_heap w' = {[ 9%positive := Block 0 4 4 ∅ ]}).
Proof. compute_run. Qed.

(** ** C54: shrink_to_fit *)

Theorem C54_shrink_to_fit V (cf : cfg V) v l cap hv hf w :
  cfg_ok cf -> vec_owns cf v l cap hv -> heap_is w hv hf -> w_err w = None ->
  runs (vec_shrink_to_fit cf v) w (fun v' w' =>
    match w_err w' with
    | None => exists hv', vec_owns cf v' l (length l) hv' /\ heap_is w' hv' hf
    | Some _ => v' = v /\ w_heap w' = w_heap w
    end).
Proof.
  intros Hcf Ho Hh He. eapply runs_shrink; try done.
  - intros <-. rewrite He. eauto.
  - intros v' b hv' w' _ _ _ _ Ho' Hh' He' _. rewrite He'. eauto.
  - intros w' e _ Hw' He' _. by rewrite He'.
Qed.
Print Assumptions C54_shrink_to_fit.

Example C54_example :
  runs (vec_shrink_to_fit cfD (vec1 [4] 2)) (world1 [4] 2 [EvOk 3]) (fun v' w' =>
    v' = Vec 0 (Ptr 3 0) (Ptr 3 1) (Ptr 3 1) /\
    w_heap w' = {[ 3%positive := Block 0 1 1 (map_seq 0 [4]) ]}).
Proof. compute_run. Qed.

(** ** C62: where the elements are *)

(** data(), begin() + i and &v[i] agree, every element is found there, and
    end() - begin() is the number of elements *)
Theorem C62_contiguous V (cf : cfg V) v l cap hv hf w :
  vec_owns cf v l cap hv -> heap_is w hv hf -> l <> [] ->
  exists b, vec_data cf v w = Done (Ptr b 0) w /\ vec_begin v = Ptr b 0 /\ vec_end v = Ptr b (length l) /\
    forall i x, l !! i = Some x ->
      vec_index cf v i w = Done (Ptr b i) w /\ padd (vec_begin v) i w = Done (Ptr b i) w /\ read (Ptr b i) w = Done x w.
Proof.
  intros Ho Hh Hne. assert (Hsub : hv ⊆ w_heap w) by (destruct Hh as [-> _]; apply map_union_subseteq_l).
  pose proof Ho as [(_ & _ & _ & -> & _)|(b & Hs & Hf & _ & Hle & _ & Hv)]; [done|]. exists b.
  assert (Hb : w_heap w !! b = Some (Block (m_allocator v) cap cap (map_seq 0 l))).
  { apply (lookup_weaken hv); [|done]. rewrite Hv. apply lookup_singleton. }
  split_and!; [|done|done|].
  - assert (Hr : runs (vec_data cf v) w (fun p w' => p = Ptr b 0 /\ w' = w)).
    { unfold vec_data. rbind. apply runs_assert; [rewrite (owns_empty cf v l cap hv Ho); by rewrite bool_decide_false|]. by apply runs_ret. }
    by destruct Hr as (p & w' & -> & -> & ->).
  - intros i x Hi. pose proof (lookup_lt_Some _ _ _ Hi) as Hlt. split_and!.
    + assert (Hr : runs (vec_index cf v i) w (fun p w' => p = Ptr b i /\ w' = w)).
      { eapply runs_index; [done..|]. unfold vec_pos. by rewrite Hs. }
      by destruct Hr as (p & w' & -> & -> & ->).
    + unfold vec_begin. rewrite Hs.
      assert (Hr : runs (padd (Ptr b 0) i) w (fun p w' => p = Ptr b i /\ w' = w)).
      { eapply runs_padd; [done|simpl; lia|done]. }
      by destruct Hr as (p & w' & -> & -> & ->).
    + assert (Hr : runs (read (Ptr b i)) w (fun y w' => y = x /\ w' = w)).
      { replace (Ptr b i) with (vec_pos v i) by (unfold vec_pos; by rewrite Hs). by eapply runs_read_elem. }
      by destruct Hr as (p & w' & -> & -> & ->).
Qed.
Print Assumptions C62_contiguous.

(** in builds with assertions, access outside the vector is caught, whatever
    the capacity *)
Theorem C62_checked V (cf : cfg V) v l cap hv hf w :
  vec_owns cf v l cap hv -> heap_is w hv hf -> c_dbg cf = true ->
  (forall i, length l <= i -> vec_index cf v i w = Fault FAssert /\ vec_at cf v i w = Fault FAssert) /\
  (l = [] -> vec_front cf v w = Fault FAssert /\ vec_back cf v w = Fault FAssert /\ vec_data cf v w = Fault FAssert) /\
  (forall i a args, m_start v <> Null -> length l < i ->
     vec_insert cf v (vec_pos v i) a w = Fault FAssert /\ vec_insert_range cf v (vec_pos v i) args w = Fault FAssert).
Proof.
  intros Ho Hh Hd. split; [|split].
  - intros i Hi. assert (Hx : vec_index cf v i w = Fault FAssert).
    { unfold vec_index, bind.
      assert (Hr : runs (vec_size v) w (fun n w' => n = length l /\ w' = w)) by (by eapply owns_size).
      destruct Hr as (n & w' & -> & -> & ->). unfold assert_. rewrite Hd, bool_decide_false by lia. done. }
    split; [done|]. unfold vec_at, bind. by rewrite Hx.
  - intros ->. unfold vec_front, vec_back, vec_data, bind, assert_. rewrite (owns_empty cf v [] cap hv Ho), Hd. done.
  - intros i a args Hn Hi. destruct Ho as [(? & _)|(b & Hs & Hf & _)]; [done|]. unfold vec_insert, insert_value, vec_insert_range, vec_pos. rewrite Hs, Hf.
    assert (pleb (Ptr b i) (Ptr b (length l)) = false) as Hp by (apply bool_decide_eq_false; lia).
    assert (pleb (Ptr b 0) (Ptr b i) = true) as Hp0 by (apply bool_decide_eq_true; split; [done|lia]).
    split; unfold bind, assert_; by rewrite Hd, Hp0, Hp.
Qed.
Print Assumptions C62_checked.

Example C62_example :
  runs (let! p := vec_data cfD (vec1 [4; 5; 6] 8) in let! q := padd p 2 in read q) (world1 [4; 5; 6] 8 []) (fun x w' => x = 6) /\
  vec_at cfD (vec1 [4; 5; 6] 8) 3 (world1 [4; 5; 6] 8 []) = Fault FAssert /\
  vec_back cfD (vec1 [] 8) (world1 [] 8 []) = Fault FAssert /\
  vec_insert cfD (vec1 [4; 5; 6] 8) (vec_pos (vec1 [4; 5; 6] 8) 4) (AVal 9) (world1 [4; 5; 6] 8 []) = Fault FAssert.
Proof. split_and!; [compute_run|by vm_compute..]. Qed.

(** ** C63: get_allocator() *)

(** without assignments (and with assignments if the allocator is a default
    constructed one) the allocator stays the one given at construction *)
Theorem C63_allocator_kept_partial V (cf : cfg V) al ops w r w' :
  exec_ops cf ops (vec_new al) w = Done r w' ->
  al = c_dflt cf \/ Forall (fun op => match op with OpAssign _ _ | OpAssignRange _ | OpSelfCopy => False | _ => True end) ops ->
  vec_get_allocator r.1 = al.
Proof.
  intros Hr Hc. pose proof (post_exec_ops cf ops (vec_new al) _ _ _ Hr) as H. unfold vec_get_allocator. rewrite H. simpl. clear -Hc.
  revert Hc. induction ops as [|op ops IH]; intros Hc; simpl; [done|]. destruct Hc as [->|Hc].
  - destruct op; simpl; apply IH; by left.
  - apply Forall_cons in Hc as [Hop Hc]. destruct op; simpl in *; try done; apply IH; by right.
Qed.
Print Assumptions C63_allocator_kept_partial.

(** swap exchanges the allocators, moving keeps the target's *)
Theorem C63_swap_move_partial V (cf : cfg V) v o w r w' :
  vec_get_allocator (vec_swap v o).1 = vec_get_allocator o /\ vec_get_allocator (vec_swap v o).2 = vec_get_allocator v /\
  vec_get_allocator (vec_move_ctor o).1 = vec_get_allocator o /\
  (vec_move_assign (V := V) v o w = Done r w' ->
   vec_get_allocator r.1 = vec_get_allocator v /\ vec_get_allocator r.2 = vec_get_allocator o).
Proof.
  split_and!; [done..|]. intros Hr. unfold vec_move_assign in Hr. simpl in Hr. unfold bind in Hr.
  destruct (vec_destroy _ _); [|done]. by injection Hr as <- <-.
Qed.
Print Assumptions C63_swap_move_partial.

(** assign() and copy_nothrow() replace a stateful allocator by a default
    constructed one *)
Theorem C63_assign_refuted : exists (cf : cfg nat) al w v w', cfg_ok cf /\
  vec_assign_n cf (vec_new al) 1 (AVal 7) w = Done v w' /\ w_err w' = None /\ vec_get_allocator v <> al.
Proof.
  assert (Hr : runs (vec_assign_n cfD (vec_new 3) 1 (AVal 7)) (w_start []) (fun v w' => w_err w' = None /\ vec_get_allocator v = 0)) by compute_run.
  destruct Hr as (v & w' & Hr & He & Ha). exists cfD, 3, (w_start []), v, w'. split; [apply cfD_ok|]. split_and!; [done..|]. by rewrite Ha.
Qed.
Print Assumptions C63_assign_refuted.

Example C63_example :
  runs (exec_ops cfD [OpPush 1; OpResize 4 2; OpReserve 9; OpShrink; OpClear; OpPush 3] (vec_new 5)) (w_start []) (fun r w' =>
    vec_get_allocator r.1 = 5).
Proof. compute_run. Qed.
