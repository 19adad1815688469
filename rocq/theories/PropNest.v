(** * Property C73: vectors of vectors

    A nested value [deep T] is what a vector of vectors (of vectors ...) stands
    for; [nops_spec] (NestHistSpec.v) gives the meaning of the calls on nested
    values.  [nread] reads a whole variable through size() and operator[]. *)
From Verif Require Import NestHist VecMore.

(** New variables whose elements have the depths [ds]. *)
Definition nrow_new {T} (lc : nat -> cfg (val T)) (ds : list nat) : list (nat * vec_obj) :=
  map (fun d => (d, vec_new (c_dflt (lc d)))) ds.
Definition empties {T} (ds : list nat) : list (deep T) := map (fun _ => DList []) ds.

(** small steps from [runs] to results *)
Lemma runs_done {C A} (m : M C A) w Q a w' : runs m w Q -> m w = Done a w' -> Q a w'.
Proof. intros (a0 & w0 & He & HQ) Hd. rewrite He in Hd. by simplify_eq. Qed.

Section props.
  Context {T : Type} (lc : nat -> cfg (val T)) (ex : bool).

  Lemma nrow_new_own ds : all_own (nvar_own lc) (nrow_new lc ds) (empties ds) ∅.
  Proof.
    induction ds as [|d ds IH]; simpl; [constructor|].
    rewrite <-(left_id_L ∅ (∪) ∅). constructor; [|exact IH|apply map_disjoint_empty_l].
    split; [done|]. exists [], 0. split; [done|]. apply nowns_new.
  Qed.
  Lemma nrow_new_depths ds : (nrow_new lc ds).*1 = ds.
  Proof. induction ds as [|d ds IH]; simpl; [done|]. by f_equal. Qed.

  Lemma nvar_read v x h w : nvar_own lc v x h -> h ⊆ w_heap w -> nread lc (S v.1) (VVec v.2) w = Done x w.
  Proof.
    intros (_ & xs & cap & -> & Ho) Hs. eapply nread_spec; [|exact Hs]. by exists v.2, xs, cap.
  Qed.

  Lemma row_read vs xs hv hf i v x w : all_own (nvar_own lc) vs xs hv -> heap_is w hv hf ->
    vs !! i = Some v -> xs !! i = Some x ->
    exists h, nvar_own lc v x h /\ h ⊆ w_heap w /\ nread lc (S v.1) (VVec v.2) w = Done x w.
  Proof.
    intros Hr [Hw Hd] Hv Hx.
    destruct (all_own_focus _ _ _ _ _ _ Hr Hv) as (y & h1 & h2 & Hy & Ho & Hd12 & -> & _). simplify_eq.
    assert (Hs : h1 ⊆ w_heap w).
    { rewrite Hw. etrans; [|apply map_union_subseteq_l]. apply map_union_subseteq_l. }
    exists h1. split_and!; [done|done|by eapply nvar_read].
  Qed.
End props.

(** Any history of calls on new variables, at any nesting depth, whatever the
    allocator and the plain elements' constructors answer: no undefined
    behaviour, and afterwards reading every variable gives the nested value that
    the specification determines. *)
Theorem C73_history T (lc : nat -> cfg (val T)) ex ds ops w :
  (forall d, cfg_ok (lc d)) -> (forall d, growth_ok (lc d)) -> Forall (nop_legal lc ds) ops ->
  runs (exec_nops lc ex ops (nrow_new lc ds)) w (fun r w' =>
    exists xs, nops_spec ops (empties ds) r.2 xs /\ length xs = length r.1 /\
      forall i v x, r.1 !! i = Some v -> xs !! i = Some x -> nread lc (S v.1) (VVec v.2) w' = Done x w').
Proof.
  intros Hlc Hg Hl. eapply runs_mono.
  { eapply (runs_exec_nops lc ex Hlc Hg ops _ _ ∅ (w_heap w)); [apply nrow_new_own|by apply heap_is_empty|by rewrite nrow_new_depths]. }
  intros r w' (xs & hv & Hr & Hh & Hs & _). exists xs. split; [done|]. split; [by rewrite (all_own_length _ _ _ _ Hr)|].
  intros i v x Hv Hx. destruct (row_read lc _ _ _ _ _ _ _ _ Hr Hh Hv Hx) as (h & _ & _ & H). exact H.
Qed.
Print Assumptions C73_history.

(** Destroying the variables frees everything, at every level, once. *)
Theorem C73_no_leak T (lc : nat -> cfg (val T)) ex ds ops w :
  (forall d, cfg_ok (lc d)) -> (forall d, growth_ok (lc d)) -> Forall (nop_legal lc ds) ops ->
  runs (let! r := exec_nops lc ex ops (nrow_new lc ds) in destroy_nrow r.1) w (fun _ w' => w_heap w' = w_heap w).
Proof.
  intros Hlc Hg Hl. rbind. eapply runs_mono.
  { eapply (runs_exec_nops lc ex Hlc Hg ops _ _ ∅ (w_heap w)); [apply nrow_new_own|by apply heap_is_empty|by rewrite nrow_new_depths]. }
  intros r w' (xs & hv & Hr & Hh & Hs & _). by eapply runs_destroy_nrow.
Qed.
Print Assumptions C73_no_leak.

(** A copy of a nested vector made after any history shares nothing with the
    original: it has the same value, it keeps that value whatever is done to the
    variables afterwards, and destroying it frees exactly what copying
    allocated.  A failed copy leaves nothing behind. *)
Theorem C73_copy T (lc : nat -> cfg (val T)) ex ds ops w r w1 j v x :
  (forall d, cfg_ok (lc d)) -> (forall d, growth_ok (lc d)) -> Forall (nop_legal lc ds) ops ->
  exec_nops lc ex ops (nrow_new lc ds) w = Done r w1 ->
  r.1 !! j = Some v -> nread lc (S v.1) (VVec v.2) w1 = Done x w1 ->
  runs (g_copy_ctor (lc v.1) (ncons lc ex v.1) (ndes v.1) v.2) w1 (fun c w2 =>
    match c with
    | inl c =>
        nread lc (S v.1) (VVec c) w2 = Done x w2 /\
        (forall ops', Forall (nop_legal lc ds) ops' ->
           runs (exec_nops lc ex ops' r.1) w2 (fun _ w3 => nread lc (S v.1) (VVec c) w3 = Done x w3)) /\
        runs (g_vec_destroy (ndes v.1) c) w2 (fun _ w3 => w_heap w3 = w_heap w1)
    | inr _ => w_heap w2 = w_heap w1
    end).
Proof.
  intros Hlc Hg Hl Hrun Hj Hx.
  assert (HH : exists xs hv, all_own (nvar_own lc) r.1 xs hv /\ heap_is w1 hv (w_heap w) /\ r.1.*1 = ds).
  { eapply (runs_done _ _ (fun r w1 => exists xs hv, all_own (nvar_own lc) r.1 xs hv /\ heap_is w1 hv (w_heap w) /\ r.1.*1 = ds)); [|exact Hrun].
    eapply runs_mono.
    { eapply (runs_exec_nops lc ex Hlc Hg ops _ _ ∅ (w_heap w)); [apply nrow_new_own|by apply heap_is_empty|by rewrite nrow_new_depths]. }
    intros r0 w0 (xs & hv & Hr & Hh & Hs & Hds). exists xs, hv. split_and!; [done|apply Hh..|]. by rewrite Hds, nrow_new_depths. }
  clear Hrun. destruct HH as (xs & hv & Hr & Hh & Hds).
  destruct (lookup_lt_is_Some_2 xs j) as [y Hy].
  { rewrite <-(all_own_length _ _ _ _ Hr). by eapply lookup_lt_Some. }
  destruct (row_read lc _ _ _ _ _ _ _ _ Hr Hh Hj Hy) as (h & Ho & Hs & Hrd).
  rewrite Hrd in Hx. injection Hx as ->. destruct Ho as (_ & l & cap & -> & Ho).
  eapply (runs_g_copy_ctor (lc v.1) (obj_owns lc v.1) _ _ (ncons_ok lc ex Hlc v.1) (ndes_ok lc v.1)); [done..| |].
  - intros c cap' hn w2 Hc Hh2 _ _. split_and!.
    + eapply nread_spec; [by exists c, l, cap'|]. destruct Hh2 as [-> _]. apply map_union_subseteq_l.
    + intros ops' Hl'. destruct Hh as [Hw1 Hd1], Hh2 as [Hw2 Hd2]. rewrite Hw1 in Hd2, Hw2.
      apply map_disjoint_union_r in Hd2 as [Hd2 Hd3].
      eapply runs_mono.
      { eapply (runs_exec_nops lc ex Hlc Hg ops' _ _ hv (hn ∪ w_heap w)); [exact Hr| |by rewrite Hds].
        split; [|apply map_disjoint_union_r; split; done].
        rewrite Hw2, !(assoc_L (∪)). f_equal. by apply map_union_comm. }
      intros r' w3 (xs' & hv' & _ & [Hw3 Hd4] & _ & _).
      eapply nread_spec; [by exists c, l, cap'|]. rewrite Hw3. etrans; [|by apply map_union_subseteq_r].
      apply map_union_subseteq_l.
    + eapply (runs_g_vec_destroy (lc v.1) (obj_owns lc v.1) _ (ndes_ok lc v.1)); [exact Hc|exact Hh2|]. intros w3 Hw3 _. exact Hw3.
  - intros e w' Hw' _. exact Hw'.
Qed.
Print Assumptions C73_copy.

(** Insertion in front of position [i]: on success the new element and nothing
    else is added; on failure the vector is unchanged, or (when making room in
    place failed) it is damaged in the way of C04, and nothing outside changes. *)
Theorem C73_insert T (lc : nat -> cfg (val T)) ex d v xs cap h hf i a x w :
  (forall d, cfg_ok (lc d)) -> nvec_owns (lc d) (obj_owns lc d) v xs cap h -> heap_is w h hf -> w_err w = None ->
  i <= length xs -> narg (obj_owns lc d) hf a x ->
  runs (g_insert_value (lc d) (ncons lc ex d) (ndes d) v (vec_pos v i) a) w (fun r w' =>
    match w_err w' with
    | None => r.1 = vec_pos r.2 i /\ exists cap' h',
        nvec_owns (lc d) (obj_owns lc d) r.2 (take i xs ++ [x] ++ drop i xs) cap' h' /\ heap_is w' h' hf
    | Some _ => r.1 = vec_end r.2 /\
        ((exists cap' h', nvec_owns (lc d) (obj_owns lc d) r.2 xs cap' h' /\ heap_is w' h' hf) \/
         (i < length xs /\ nvec_broken (obj_owns lc d) r.2 xs i hf w'))
    end).
Proof.
  intros Hlc Ho Hh He Hi Ha.
  eapply (runs_g_insert_value (lc d) (obj_owns lc d) _ _ (ncons_ok lc ex Hlc d) (ndes_ok lc d)); [done..|].
  intros r w' (_ & [(-> & Hp & h' & Ho' & Hh')|(e & -> & Hp & Hres)]).
  - split; [done|]. eexists _, h'. split; [exact Ho'|done].
  - split; [done|]. exact Hres.
Qed.
Print Assumptions C73_insert.

(** ** Concrete cases *)

Definition lcD (d : nat) : cfg (val nat) := Cfg true (if decide (d = 0) then 8 else 32) (2^62) 0 Direct (VElem 0).
Definition nw_start (orc : list event) : world (vblock (val nat)) := World ∅ orc None 0 0.

Lemma lcD_ok : (forall d, cfg_ok (lcD d)) /\ (forall d, growth_ok (lcD d)).
Proof. split; intros [|d]; vm_compute; repeat split; congruence. Qed.

Ltac at_depth := eexists; split; [reflexivity|reflexivity].

(** v_0: vector<vector<int>>, v_1: vector<int>, v_2: vector<vector<vector<int>>>. *)
Definition C73_ops : list (nop nat) :=
  [NPush 1 [] (NTemp 1); NPush 1 [] (NTemp 2);  (* v_1 = {1, 2} *)
   NPush 0 [] (NVar 1); NPush 0 [] (NVar 1);    (* v_0 = {{1, 2}, {1, 2}} *)
   NPush 0 [1] (NTemp 3);                       (* v_0[1].push_back(3) *)
   NPush 2 [] (NVar 0);                         (* v_2 = {{{1, 2}, {1, 2, 3}}} *)
   NClear 0 [0];
   NPush 2 [0] (NElem 0 [] 1);                  (* v_2[0].push_back(v_0[1]) *)
   NCopy 1 [] 2 [0; 1];                         (* v_1 = v_2[0][1] *)
   NResize 2 [0] 2 (NVar 1);
   NThrowingCopy 0 [] 2 [0]].

Lemma C73_ops_legal : Forall (nop_legal lcD [1; 0; 2]) C73_ops.
Proof.
  unfold C73_ops. repeat (apply Forall_cons; split); [..|apply Forall_nil; done]; unfold nop_legal.
  - exists 0. split; [at_depth|done].
  - exists 0. split; [at_depth|done].
  - exists 1. split; [at_depth|]. split; [at_depth|done].
  - exists 1. split; [at_depth|]. split; [at_depth|done].
  - exists 0. split; [at_depth|done].
  - exists 2. split; [at_depth|]. split; [at_depth|done].
  - exists 0. at_depth.
  - exists 1. split; [at_depth|]. split; [done|at_depth].
  - exists 0. split; at_depth.
  - exists 1. split; [at_depth|]. split; [|done]. split; [at_depth|done].
  - exists 1. split; at_depth.
Qed.

(** Calls between vectors inside one variable. *)
Definition C73_ops_inside : list (nop nat) :=
  [NPush 1 [] (NTemp 1); NPush 1 [] (NTemp 2);
   NPush 0 [] (NVar 1); NPush 0 [] (NVar 1);
   NPush 2 [] (NVar 0); NPush 2 [] (NVar 0);    (* v_2 = {{{1, 2}, {1, 2}}, {{1, 2}, {1, 2}}} *)
   NPush 2 [0; 1] (NElem 2 [0; 0] 1);           (* v_2[0][1].push_back(v_2[0][0][1]) *)
   NPush 2 [1] (NElem 2 [0] 1);                 (* v_2[1].push_back(v_2[0][1]) *)
   NAssign 2 [1; 2] 2 [1; 2] 1 3;               (* a part of the vector itself *)
   NCopy 2 [0; 0] 2 [1; 2];
   NThrowingCopy 2 [0] 2 [0]].

Lemma C73_ops_inside_legal : Forall (nop_legal lcD [1; 0; 2]) C73_ops_inside.
Proof.
  unfold C73_ops_inside. repeat (apply Forall_cons; split); [..|apply Forall_nil; done]; unfold nop_legal.
  - exists 0. split; [at_depth|done].
  - exists 0. split; [at_depth|done].
  - exists 1. split; [at_depth|]. split; [at_depth|done].
  - exists 1. split; [at_depth|]. split; [at_depth|done].
  - exists 2. split; [at_depth|]. split; [at_depth|done].
  - exists 2. split; [at_depth|]. split; [at_depth|done].
  - exists 0. split; [at_depth|]. split; [done|at_depth].
  - exists 1. split; [at_depth|]. split; [done|at_depth].
  - split; [lia|]. exists 0. split; at_depth.
  - exists 0. split; at_depth.
  - exists 1. split; at_depth.
Qed.

#[local] Instance deep_eq_dec : EqDecision (deep nat).
Proof.
  refine (fix go (x y : deep nat) : Decision (x = y) :=
    match x, y with
    | DElem a, DElem b => cast_if (decide (a = b))
    | DList l, DList k => cast_if (List.list_eq_dec go l k)
    | _, _ => right _
    end); congruence.
Defined.

(** Without failures. *)
Example C73_example :
  runs (let! r := exec_nops lcD true C73_ops (nrow_new lcD [1; 0; 2]) in
        let! xs := foldr (fun v k => let! x := nread lcD (S v.1) (VVec v.2) in let! l := k in ret (x :: l)) (ret []) r.1 in
        ret (r.2, xs)) (nw_start []) (fun r w' =>
    r.1 = replicate 11 None /\
    r.2 = [DList [DList [DElem 1; DElem 2]; DList [DElem 1; DElem 2; DElem 3]];
           DList [DElem 1; DElem 2; DElem 3];
           DList [DList [DList [DElem 1; DElem 2]; DList [DElem 1; DElem 2; DElem 3]]]] /\
    size (w_heap w') = 8).
Proof. compute_run. Qed.

Example C73_example_inside :
  runs (let! r := exec_nops lcD true C73_ops_inside (nrow_new lcD [1; 0; 2]) in
        let! x := match r.1 !! 2 with Some v => nread lcD (S v.1) (VVec v.2) | None => ret (DList []) end in
        do! destroy_nrow r.1 in ret (r.2, x)) (nw_start []) (fun r w' =>
    r.1 = replicate 11 None /\
    r.2 = DList [DList [DList [DElem 2; DElem 2]; DList [DElem 1; DElem 2; DElem 2]];
                 DList [DList [DElem 1; DElem 2]; DList [DElem 1; DElem 2]; DList [DElem 2; DElem 2]]] /\
    w_heap w' = ∅).
Proof. compute_run. Qed.

(** The last assignment fails while it copies the second inner vector; v_0
    keeps its value, and the number of blocks in use is the same as before. *)
Example C73_example_failure :
  runs (let! r := exec_nops lcD true C73_ops (nrow_new lcD [1; 0; 2]) in
        let! xs := foldr (fun v k => let! x := nread lcD (S v.1) (VVec v.2) in let! l := k in ret (x :: l)) (ret []) r.1 in
        ret (r.2, xs)) (nw_start (replicate 51 (EvOk 1) ++ [EvFail 7])) (fun r w' =>
    r.1 = replicate 10 None ++ [Some (EElem 7)] /\
    r.2 = [DList [DList []; DList [DElem 1; DElem 2; DElem 3]];
           DList [DElem 1; DElem 2; DElem 3];
           DList [DList [DList [DElem 1; DElem 2]; DList [DElem 1; DElem 2; DElem 3]]]] /\
    size (w_heap w') = 8).
Proof. compute_run. Qed.

(** The same with elements that are initialised in two phases. *)
Example C73_example_two_phase :
  runs (let! r := exec_nops lcD false C73_ops (nrow_new lcD [1; 0; 2]) in
        let! _ := destroy_nrow r.1 in ret r.2) (nw_start (replicate 27 (EvOk 1) ++ [EvFail 7])) (fun r w' =>
    r = [None; None; None; None; None; Some (EElem 7); None; None; None; None; None] /\ w_heap w' = ∅).
Proof. compute_run. Qed.

(** v_2 is copied, then v_2 is changed: the copy keeps the old value. *)
Example C73_copy_example :
  runs (let! r := exec_nops lcD true C73_ops (nrow_new lcD [1; 0; 2]) in
        match r.1 !! 2 with
        | None => ret None
        | Some v =>
            let! x := nread lcD (S v.1) (VVec v.2) in
            let! c := g_copy_ctor (lcD v.1) (ncons lcD true v.1) (ndes v.1) v.2 in
            match c with
            | inr _ => ret None
            | inl c =>
                let! r' := exec_nops lcD true [NClear 2 [0; 0]; NPush 2 [0; 1] (NTemp 9); NClear 0 []] r.1 in
                let! y := nread lcD (S v.1) (VVec c) in
                let! z := nread lcD (S v.1) (VVec v.2) in
                ret (Some (x, y, z))
            end
        end) (nw_start []) (fun o _ =>
    o = Some (DList [DList [DList [DElem 1; DElem 2]; DList [DElem 1; DElem 2; DElem 3]]],
              DList [DList [DList [DElem 1; DElem 2]; DList [DElem 1; DElem 2; DElem 3]]],
              DList [DList [DList []; DList [DElem 1; DElem 2; DElem 3; DElem 9]]])).
Proof. compute_run. Qed.

(** v_0 = {{1, 2}, {1, 2, 3}} with room for more: an insertion in front, which
    shifts the two vectors, succeeds, or fails in the middle of the shift and
    leaves the second slot empty. *)
Definition C73_insert_run : M (vblock (val nat)) (option (nat * option error)) :=
  let! r := exec_nops lcD true (C73_ops ++ [NReserve 0 [] 3]) (nrow_new lcD [1; 0; 2]) in
  match r.1 !! 0, r.1 !! 1 with
  | Some v, Some o =>
      do! put_err None in
      let! r := g_insert_value (lcD 1) (ncons lcD true 1) (ndes 1) v.2 (vec_pos v.2 0) (AVal (VVec o.2)) in
      let! n := vec_size r.2 in
      let! e := get_err in
      ret (Some (n, e))
  | _, _ => ret None
  end.
Example C73_insert_example :
  runs C73_insert_run (nw_start []) (fun o _ => o = Some (3, None)) /\
  runs C73_insert_run (nw_start (replicate 66 (EvOk 1) ++ [EvFail 7])) (fun o _ => o = Some (2, Some (EElem 7))).
Proof. split; compute_run. Qed.
