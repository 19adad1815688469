(** * Vectors: what happens where a partial theorem stops

    Some vector properties are false in general and proved for part of their
    range (the [_partial] theorems of PropVector.v).  The theorems here cover
    the rest of the range: they say for every case outside it what the code
    does.  [stops f m w Q]: [m] ends in the undefined behaviour [f], or it
    returns and [Q] holds. *)
From Verif Require Import VecExact VecAlloc.

(** An insertion at [i] reported an error: the elements are unchanged, or the
    vector is damaged as described in VecSpec.v. *)
Definition failed_insert {V} (cf : cfg V) (v : vec_obj) (l : list V) (i : nat) hf (w : world (vblock V)) : Prop :=
  w_err w <> None /\
  ((exists cap hv, vec_owns cf v l cap hv /\ heap_is w hv hf) \/
   (c_kind cf <> Nothrow /\ i < length l /\ exists hv, vec_damaged v l i hv /\ heap_is w hv hf)).

Lemma broken_damaged V (v : vec_obj) (l : list V) i hf w :
  vec_broken v l i hf w -> exists hv, vec_damaged v l i hv /\ heap_is w hv hf.
Proof.
  intros (b & cap' & j & live & Hs & Hf & Hen & Hj & Hc & Hpat & Hh'). eexists. split; [|exact Hh'].
  exists b, cap', j, live. split_and!; try done; try lia.
  - intros k Hk. by rewrite Hpat, decide_True.
  - by rewrite Hpat, decide_False, decide_True by lia.
  - intros k Hk. rewrite Hpat, !decide_False by lia. f_equal. lia.
Qed.

(** a concrete instance for the examples *)
Definition xD : cfg nat := Cfg true 8 (2^62) 0 Direct 0.
Definition xN : cfg nat := Cfg true 8 (2^62) 0 Nothrow 0.
Definition xT : cfg nat := Cfg true 8 (2^62) 0 TwoPhase 9.
Definition xvec (l : list nat) (cap : nat) : vec_obj := Vec 0 (Ptr 1 0) (Ptr 1 (length l)) (Ptr 1 cap).
Definition xheap (l : list nat) (cap : nat) : gmap addr (vblock nat) := {[ 1%positive := Block 0 cap cap (map_seq 0 l) ]}.
Definition xworld (l : list nat) (cap : nat) (orc : list event) : world (vblock nat) := World (xheap l cap) orc None 0 0.
Lemma xD_ok : cfg_ok xD.
Proof. repeat split; vm_compute; congruence. Qed.
Lemma xvec_owns cf l cap : length l <= cap -> cap_ok cf cap -> vec_owns cf (xvec l cap) l cap (xheap l cap).
Proof. intros. right. exists 1%positive. done. Qed.
Lemma xworld_is l cap orc : heap_is (xworld l cap orc) (xheap l cap) ∅.
Proof. split; simpl; [by rewrite (right_id_L ∅ (∪))|apply map_disjoint_empty_r]. Qed.

(** ** C05: an element of the vector itself as argument *)

(** The vector is full: insert(pos, v[k]) never succeeds.  It reads the freed
    old storage unless it fails before. *)
Theorem C05_self_insert_full V (cf : cfg V) v l hv hf i k w :
  cfg_ok cf -> vec_owns cf v l (length l) hv -> heap_is w hv hf -> w_err w = None ->
  i <= length l -> k < length l ->
  stops FFreed (vec_insert cf v (vec_pos v i) (ARef (vec_pos v k))) w (fun r w' => failed_insert cf r.2 l i hf w').
Proof.
  intros Hcf Ho Hh He Hi Hk. unfold vec_insert. eapply stops_insert_full; try done.
  intros r w' e He' Hc. split; [by rewrite He'|]. destruct Hc as [(-> & Hw)|(_ & ? & [Hc|[? Hc]])].
  - left. exists (length l), hv. split; [done|]. destruct Hh. split; [congruence|done].
  - by left.
  - right. split; [done|]. split; [done|]. by apply broken_damaged.
Qed.
Print Assumptions C05_self_insert_full.

Theorem C05_self_push_back_full V (cf : cfg V) v l hv hf k w :
  cfg_ok cf -> vec_owns cf v l (length l) hv -> heap_is w hv hf -> w_err w = None -> k < length l ->
  stops FFreed (vec_push_back cf v (ARef (vec_pos v k))) w (fun v' w' =>
    w_err w' <> None /\
    ((v' = v /\ w_heap w' = w_heap w) \/
     (c_kind cf = TwoPhase /\ exists cap' hv', vec_owns cf v' l cap' hv' /\ heap_is w' hv' hf))).
Proof.
  intros Hcf Ho Hh He Hk. unfold vec_push_back, vec_insert. rewrite (owns_pos_end _ _ _ _ _ Ho).
  apply stops_bind. eapply stops_insert_full; try done.
  intros r w' e He' Hc. apply stops_ret. split; [by rewrite He'|].
  destruct Hc as [(-> & Hw)|([?|?] & _ & [Hc|[? _]])]; [by left|lia|lia|by right|lia].
Qed.
Print Assumptions C05_self_push_back_full.

(** There is room: with k = pos the moved-from slot is read (a two-phase
    initialiser finds a default-constructed object there, and that value is
    inserted), and with k behind pos the element in front of v[k] is inserted
    instead of v[k]. *)
Theorem C05_self_insert_same V (cf : cfg V) v l cap hv hf i w :
  vec_owns cf v l cap hv -> heap_is w hv hf -> w_err w = None -> i < length l -> length l < cap ->
  stops FRaw (vec_insert cf v (vec_pos v i) (ARef (vec_pos v i))) w (fun r w' =>
    match w_err w' with
    | None => c_kind cf = TwoPhase /\
        exists hv', vec_owns cf r.2 (take i l ++ [c_default cf] ++ drop i l) cap hv' /\ heap_is w' hv' hf
    | Some _ => failed_insert cf r.2 l i hf w'
    end).
Proof.
  intros Ho Hh He Hi Hc. unfold vec_insert. eapply stops_insert_here; try done.
  - intros r w' code He' Hk Hcase. rewrite He'. split; [by rewrite He'|].
    destruct Hcase as [(hv' & ?)|Hb]; [left; by exists cap, hv'|right].
    split; [done|]. split; [done|]. by apply broken_damaged.
  - intros r w' Hk He' Hown. by rewrite He'.
Qed.
Print Assumptions C05_self_insert_same.

Theorem C05_self_insert_behind V (cf : cfg V) v l cap hv hf i k y w :
  vec_owns cf v l cap hv -> heap_is w hv hf -> w_err w = None ->
  i < k -> k < length l -> length l < cap -> l !! (k - 1) = Some y ->
  runs (vec_insert cf v (vec_pos v i) (ARef (vec_pos v k))) w (fun r w' =>
    match w_err w' with
    | None => exists hv', vec_owns cf r.2 (take i l ++ [y] ++ drop i l) cap hv' /\ heap_is w' hv' hf
    | Some _ => failed_insert cf r.2 l i hf w'
    end).
Proof.
  intros Ho Hh He Hi Hk Hc Hy. unfold vec_insert. eapply runs_insert_behind; try done.
  - intros r w' -> Hr. done.
  - intros r w' code He' Hkd Hcase. rewrite He'. split; [by rewrite He'|].
    destruct Hcase as [(hv' & ?)|Hb]; [left; by exists cap, hv'|right].
    split; [done|]. split; [lia|]. by apply broken_damaged.
Qed.
Print Assumptions C05_self_insert_behind.

(** resize(n, v[k]): growing never succeeds, shrinking does not look at v[k]. *)
Theorem C05_self_resize V (cf : cfg V) v l cap hv hf n k w :
  cfg_ok cf -> vec_owns cf v l cap hv -> heap_is w hv hf -> w_err w = None ->
  bytes_fit cf n -> fits (3 * (cap + 1)) -> k < length l ->
  if decide (n <= length l) then
    runs (vec_resize cf v n (ARef (vec_pos v k))) w (fun v' w' => exists hv',
      w_err w' = None /\ vec_owns cf v' (take n l) cap hv' /\ heap_is w' hv' hf)
  else
    stops FFreed (vec_resize cf v n (ARef (vec_pos v k))) w (fun v' w' =>
      w_err w' <> None /\
      ((v' = v /\ w_heap w' = w_heap w) \/
       (c_kind cf = TwoPhase /\ exists cap' hv', vec_owns cf v' l cap' hv' /\ heap_is w' hv' hf))).
Proof.
  intros Hcf Ho Hh He Hb Hf Hk. case_decide as Hn.
  - destruct (lookup_lt_is_Some_2 l k Hk) as [x _].
    unfold runs. rewrite (resize_shrink cf v l cap hv n _ (AVal x) w Ho Hn).
    apply (runs_resize cf v l cap hv hf n (AVal x) x); try done; [by right| |lia].
    intros v' hv' w' _ _ _ Ho' Hh' He' _ _. eauto.
  - eapply stops_resize; try done; [by right|lia| |].
    + intros w' e Hw He'. rewrite He'. split; [done|by left].
    + intros v' cap' hv' w' e Hk2 Ho' Hh' He'. rewrite He'. split; [done|]. right. eauto.
Qed.
Print Assumptions C05_self_resize.

Example C05_exact_example :
  vec_owns xN (xvec [4; 5] 2) [4; 5] (length [4; 5]) (xheap [4; 5] 2) /\ vec_owns xN (xvec [4; 5; 6] 4) [4; 5; 6] 4 (xheap [4; 5; 6] 4) /\
  vec_insert xN (xvec [4; 5] 2) (Ptr 1 1) (ARef (Ptr 1 0)) (xworld [4; 5] 2 []) = Fault FFreed /\
  vec_push_back xN (xvec [4; 5] 2) (ARef (Ptr 1 0)) (xworld [4; 5] 2 []) = Fault FFreed /\
  vec_insert xN (xvec [4; 5; 6] 4) (Ptr 1 1) (ARef (Ptr 1 1)) (xworld [4; 5; 6] 4 []) = Fault FRaw /\
  runs (vec_insert xN (xvec [4; 5; 6] 4) (Ptr 1 0) (ARef (Ptr 1 2))) (xworld [4; 5; 6] 4 []) (fun _ w' => w_heap w' = xheap [5; 4; 5; 6] 4) /\
  vec_resize xN (xvec [4; 5; 6] 4) 4 (ARef (Ptr 1 2)) (xworld [4; 5; 6] 4 []) = Fault FFreed /\
  runs (vec_resize xN (xvec [4; 5; 6] 4) 1 (ARef (Ptr 1 2))) (xworld [4; 5; 6] 4 []) (fun _ w' => w_heap w' = xheap [4] 4) /\
  runs (vec_insert xT (xvec [4; 5; 6] 4) (Ptr 1 1) (ARef (Ptr 1 1))) (xworld [4; 5; 6] 4 [])
    (fun _ w' => w_err w' = None /\ w_heap w' = xheap [4; 9; 5; 6] 4) /\
  runs (vec_push_back xT (xvec [4] 1) (ARef (Ptr 1 0))) (xworld [4] 1 [EvOk 2; EvOk 1; EvOk 1; EvFail 3])
    (fun v' w' => w_err w' = Some (EElem 3) /\ vec_size v' w' = Done 1 w').
Proof.
  split; [apply (xvec_owns xN [4; 5] 2); [simpl; lia|vm_compute; congruence]|].
  split; [apply xvec_owns; [simpl; lia|vm_compute; congruence]|].
  split; [by vm_compute|]. split; [by vm_compute|]. split; [by vm_compute|]. split; [compute_run|]. split; [by vm_compute|]. split; [compute_run|].
  split; [compute_run|]. eexists _, _. split; [by vm_compute|]. by vm_compute.
Qed.

(** ** C53, C06: byte counts that do not fit size_t *)

(** allocate(n) gets room for (n * sizeof(T) mod 2^64) / sizeof(T) objects:
    too little exactly if n * sizeof(T) does not fit. *)
Theorem C53_allocate_room V (cf : cfg V) al n w :
  cfg_ok cf -> w_err w = None ->
  runs (allocate cf al n) w (fun p w' =>
    match w_err w' with
    | None => exists b room, p = Ptr b 0 /\ w_heap w !! b = None /\
        w_heap w' = <[b := Block al n room ∅]> (w_heap w) /\
        N.of_nat room = ((N.of_nat n * c_sizeof cf) mod 2^64 / c_sizeof cf)%N /\
        (room < n <-> (2^64 <= N.of_nat n * c_sizeof cf)%N)
    | Some _ => p = Null /\ w_heap w' = w_heap w
    end).
Proof.
  intros Hcf He. apply runs_allocate_any; simpl; [|done]. intros b orc Hb. rewrite He.
  eexists b, (room_for cf n). split_and!; try done.
  - unfold room_for. by rewrite N2Nat.id.
  - symmetry. apply room_for_lt. destruct Hcf as [[??] ?]. lia.
Qed.
Print Assumptions C53_allocate_room.

(** reserve(n) with such an n never succeeds: it computes a pointer outside
    the storage (or copies an element outside it), unless it fails before. *)
Theorem C06_reserve_overflow V (cf : cfg V) v l cap hv hf n w :
  cfg_ok cf -> vec_owns cf v l cap hv -> heap_is w hv hf -> w_err w = None ->
  fits n -> ~ bytes_fit cf n ->
  stops FBounds (vec_reserve cf v n) w (fun v' w' => w_err w' <> None /\ v' = v /\ w_heap w' = w_heap w).
Proof.
  intros Hcf Ho Hh He Hn Hb. eapply stops_reserve_overflow; try done.
  - unfold bytes_fit in Hb. lia.
  - intros w' e Hw He'. by rewrite He'.
Qed.
Print Assumptions C06_reserve_overflow.

Example C06_overflow_example : exists n, fits n /\ ~ bytes_fit xD n /\
  vec_owns xD (xvec [4; 5] 2) [4; 5] 2 (xheap [4; 5] 2) /\
  stops FBounds (vec_reserve xD (xvec [4; 5] 2) n) (xworld [4; 5] 2 []) (fun v' w' => w_err w' <> None).
Proof.
  exists (N.to_nat (2^61 + 1)).
  assert (Hf : fits (N.to_nat (2^61 + 1))) by (unfold fits; rewrite N2Nat.id; done).
  assert (Hb : ~ bytes_fit xD (N.to_nat (2^61 + 1))) by (unfold bytes_fit; rewrite N2Nat.id; by vm_compute).
  assert (Ho : vec_owns xD (xvec [4; 5] 2) [4; 5] 2 (xheap [4; 5] 2)) by (apply xvec_owns; [simpl; lia|vm_compute; congruence]).
  split; [done|]. split; [done|]. split; [done|].
  eapply stops_mono; [apply (C06_reserve_overflow _ xD _ _ _ _ _ _ _ xD_ok Ho (xworld_is [4; 5] 2 [])); done|].
  by intros v' w' (? & _).
Qed.

(** ** C09: resize() upwards *)

(** ... asks for storage exactly once, whether or not the capacity suffices. *)
Theorem C09_resize_allocates V (cf : cfg V) v l cap hv hf n a x w :
  cfg_ok cf -> growth_ok cf -> vec_owns cf v l cap hv -> heap_is w hv hf -> w_err w = None ->
  bytes_fit cf n -> arg_outside hf a x -> length l < n ->
  runs (vec_resize cf v n a) w (fun _ w' => w_allocs w' = S (w_allocs w)).
Proof.
  intros Hcf Hg Ho Hh He Hb Ha Hn. eapply runs_resize_allocs; try done. right.
  pose proof (owns_cap_ok _ _ _ _ _ Hcf Ho) as Hco. by eapply growth_fits.
Qed.
Print Assumptions C09_resize_allocates.

Example C09_resize_example :
  runs (vec_resize xD (xvec [4; 5] 8) 3 (AVal 1)) (xworld [4; 5] 8 [EvOk 2]) (fun _ w' =>
    w_allocs w' = 1 /\ w_heap w' = {[ 2%positive := Block 0 13 13 (map_seq 0 [4; 5; 1]) ]}).
Proof. compute_run. Qed.

(** ** C12: move assignment between different allocators *)

(** The storage arrives, the allocator does not: the target shows the right
    elements, and destroying it returns the storage to the wrong allocator
    (unless there is none). *)
Theorem C12_move_assign_unequal V (cf : cfg V) v l cap hv o lo capo ho hf w :
  vec_owns cf v l cap hv -> vec_owns cf o lo capo ho -> m_allocator v <> m_allocator o ->
  heap_is w hv (ho ∪ hf) -> ho ##ₘ hf ->
  runs (vec_move_assign v o) w (fun r w' =>
    (forall i, vec_pos r.1 i = vec_pos o i) /\ vec_size r.1 w' = Done (length lo) w' /\
    vec_get_allocator r.1 = vec_get_allocator v /\
    vec_owns cf r.2 [] 0 ∅ /\ heap_is w' ho hf /\ w_err w' = w_err w /\
    (ho = ∅ -> vec_owns cf r.1 [] 0 ∅) /\
    (ho <> ∅ -> vec_destroy r.1 w' = Fault FAlloc)).
Proof.
  intros Ho Hoo Hal Hh Hd. eapply runs_move_assign_any; try done. simpl.
  assert (Hh' : heap_is (set_heap (ho ∪ hf) w) ho hf) by done.
  split_and!; try done.
  - destruct (owns_size cf o lo capo ho (set_heap (ho ∪ hf) w) (fun a w' => a = length lo /\ w' = set_heap (ho ∪ hf) w) Hoo ltac:(done)) as (a0 & w' & E & -> & ->).
    exact E.
  - by left.
  - intros Hemp. destruct Hoo as [(H1 & H2 & H3 & _)|(b & _ & _ & _ & _ & _ & E)]; [left; simpl; by split_and!|].
    rewrite Hemp in E. symmetry in E. by apply map_non_empty_singleton in E.
  - intros Hne. eapply (destroy_foreign cf _ o); try done.
Qed.
Print Assumptions C12_move_assign_unequal.

Example C12_unequal_example :
  let o := Vec 3 (Ptr 2 0) (Ptr 2 1) (Ptr 2 1) in
  let ho : gmap addr (vblock nat) := {[ 2%positive := Block 3 1 1 (map_seq 0 [8]) ]} in
  vec_owns xD o [8] 1 ho /\ m_allocator (xvec [4; 5] 2) <> m_allocator o /\
  runs (vec_move_assign (xvec [4; 5] 2) o) (World (xheap [4; 5] 2 ∪ ho) [] None 0 0) (fun r w' => vec_destroy r.1 w' = Fault FAlloc).
Proof.
  split; [right; exists 2%positive; repeat split; simpl; [lia|vm_compute; congruence]|]. split; [done|]. compute_run.
Qed.

(** ** C16: push_back() with an error object that is already set *)

(** It never adds the element.  If the environment does not refuse, it leaks
    the new storage (full vector) or leaves a live object behind end(), so
    that the destructor returns storage with a live object in it. *)
Theorem C16_stale_push_back V (cf : cfg V) v l cap hv hf a x e w :
  cfg_ok cf -> vec_owns cf v l cap hv -> heap_is w hv hf -> w_err w = Some e ->
  arg_outside (hv ∪ hf) a x ->
  runs (vec_push_back cf v a) w (fun v' w' => v' = v /\ w_err w' <> None /\
    (w_heap w' = w_heap w \/
     (length l = cap /\ exists b n, w_heap w !! b = None /\ w_heap w' = <[b := Block (m_allocator v) n n ∅]> (w_heap w)) \/
     (length l < cap /\ vec_destroy v' w' = Fault FLive))).
Proof.
  intros Hcf Ho Hh He Ha. eapply runs_push_back_stale; try done.
  - intros w' He' Hw. eauto.
  - intros w' b n He' Hl Hb Hw. split_and!; try done. right. left. eauto.
  - intros w' He' Hl Hd. split_and!; try done. right. by right.
Qed.
Print Assumptions C16_stale_push_back.

Example C16_stale_example :
  runs (vec_push_back xD (xvec [4; 5] 2) (AVal 6)) (World (xheap [4; 5] 2) [EvOk 3] (Some EBadAlloc) 0 0) (fun v' w' =>
    v' = xvec [4; 5] 2 /\ w_heap w' = <[3%positive := Block 0 4 4 ∅]> (xheap [4; 5] 2)) /\
  runs (vec_push_back xD (xvec [4; 5] 3) (AVal 6)) (World (xheap [4; 5] 3) [] (Some EBadAlloc) 0 0) (fun v' w' =>
    vec_destroy v' w' = Fault FLive).
Proof. split; compute_run. Qed.

(** ** C63: after an assignment *)

(** Once a history contains an assignment or copy, get_allocator() is a
    default constructed allocator whatever the vector was created with. *)
Theorem C63_assigned V (cf : cfg V) al ops w r w' :
  exec_ops cf ops (vec_new al) w = Done r w' ->
  Exists (fun op => match op with OpAssign _ _ | OpAssignRange _ | OpSelfCopy => True | _ => False end) ops ->
  vec_get_allocator r.1 = c_dflt cf.
Proof.
  intros Hr Hc. pose proof (post_exec_ops cf ops (vec_new al) _ _ _ Hr) as H. unfold vec_get_allocator. rewrite H. simpl. clear -Hc.
  assert (Hd : forall ops, foldl (fun al op => op_allocator cf op al) (c_dflt cf) ops = c_dflt cf).
  { intros l. induction l as [|op l IH]; [done|]. simpl. by destruct op. }
  revert al. induction Hc as [op ops Hop|op ops Hc IH]; intros al; simpl; [|apply IH].
  destruct op; try done; apply Hd.
Qed.
Print Assumptions C63_assigned.

Example C63_assigned_example :
  runs (exec_ops xD [OpPush 1; OpAssign 2 4; OpPush 3] (vec_new 5)) (World ∅ [] None 0 0) (fun r w' => vec_get_allocator r.1 = 0).
Proof. compute_run. Qed.
