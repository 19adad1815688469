(** * Properties C41-C48, C56, C57: shared_ptr and weak_ptr

    Stated over the model (SpModel.v) with the vocabulary of SpSpec.v and
    SpHistSpec.v.  [runs m w Q]: the call [m], started in machine state [w],
    returns without undefined behaviour or failing assertion, and [Q] holds of
    its result and the state afterwards.  [exec_spops cf ops []] runs a program
    of arbitrary statements over shared_ptr and weak_ptr variables, and members
    of managed objects, starting without variables. *)
From Verif Require Import SpHist.

(** ** Concrete programs for the examples and counterexamples *)

Definition scD : cfg nat := Cfg true 8 (2^62) 0 Direct 0.
(** the same with assertions compiled out *)
Definition scR : cfg nat := Cfg false 8 (2^62) 0 Direct 0.
Definition sw0 (orc : list event) : world (scell nat) := World ∅ orc None 0 0.

(** two lists of two nodes that share their tail, with a weak_ptr to the tail *)
Definition sp_prog : list (spop nat) :=
  [SoMake 1 [KShared]; SoMake 2 [KShared]; SoMake 3 [KShared];
   SoAssign (EMem (EVar 0) 0) (EVar 1); SoAssign (EMem (EVar 2) 0) (EVar 1);
   SoWeak (EVar 1); SoDrop 1].
Lemma sp_prog_shared : Forall shared_members sp_prog.
Proof. repeat constructor. Qed.

(** use_count() and the value seen through expressions *)
Definition look_sp (e : hexp) (vars : list addr) : M (scell nat) (Z * option nat) :=
  let! l := eval scD vars e in
  match l with
  | None => fail FNull
  | Some l =>
      let! n := sp_use_count scD l in
      let! h := get_handle l in
      if decide (h_kind h = KShared /\ h_ptr h <> None) then
        let! r := sp_deref scD l in ret (n, Some r.1.2)
      else ret (n, None)
  end.

(** ** C41 *)

(** Programs whose objects have shared_ptr members only. *)
Theorem C41_use_count V (cf : cfg V) ops orc :
  Forall shared_members ops ->
  runs (exec_spops cf ops []) (World ∅ orc None 0 0) (fun vars w =>
    forall l x, holds (w_heap w) l x -> handle_shows cf w l x).
Proof.
  intros Hf. pose proof (exec_spops_shared cf ops [] (World ∅ orc None 0 0) (good_start _ _ _ _) (members_start _ _ _ _) Hf) as Hr.
  eapply runs_mono; [exact Hr|]. intros vars w [[Hi _] _] l x Hx. by apply shows.
Qed.
Print Assumptions C41_use_count.

(** Programs whose objects may have weak_ptr members.  [weak_safe_run]: whenever
    a statement releases a shared_ptr, and a weak member of an object that may
    go with it leads back to that object, another weak_ptr stays (see C47). *)
Theorem C41_use_count_weak_partial V (cf : cfg V) ops orc :
  weak_safe_run cf ops [] (World ∅ orc None 0 0) ->
  runs (exec_spops cf ops []) (World ∅ orc None 0 0) (fun vars w =>
    forall l x, holds (w_heap w) l x -> handle_shows cf w l x).
Proof.
  intros Hs. eapply runs_mono; [apply ends_runs, (exec_spops_good cf false); [apply good_start|done]|].
  intros vars w [Hi _] l x Hx. by apply shows.
Qed.
Print Assumptions C41_use_count_weak_partial.

(** Any program: if it does not touch a freed control block (C47), then the
    counts are right; nothing else can go wrong. *)
Theorem C41_use_count_any_partial V (cf : cfg V) ops orc :
  match exec_spops cf ops [] (World ∅ orc None 0 0) with
  | Done vars w => forall l x, holds (w_heap w) l x -> handle_shows cf w l x
  | Fault f => f = FFreed
  end.
Proof.
  pose proof (exec_spops_good cf true ops [] (World ∅ orc None 0 0) (good_start _ _ _ _) ltac:(done)) as Hr. unfold ends in Hr.
  destruct (exec_spops _ _ _ _) as [vars w|f]; [|by destruct Hr]. intros l x Hx. apply shows; [|done]. apply Hr.
Qed.
Print Assumptions C41_use_count_any_partial.

Example C41_example :
  runs (let! vars := exec_spops scD sp_prog [] in
        let! a := look_sp (EVar 0) vars in
        let! b := look_sp (EMem (EVar 0) 0) vars in
        let! c := look_sp (EMem (EVar 1) 0) vars in
        let! d := look_sp (EVar 2) vars in
        ret [a; b; c; d]) (sw0 []) (fun r _ => r = [(1%Z, Some 1); (2%Z, Some 2); (2%Z, Some 2); (2%Z, None)]).
Proof. compute_run. Qed.

(** ** C42 *)

(** In every state a program reaches, objects are alive exactly as long as they
    have an owner ([sp_state]); no statement destroys an object twice (that
    would be a fault), revives a dead one, or changes a living one. *)
Theorem C42_object_lifetime V (cf : cfg V) ops orc :
  Forall shared_members ops ->
  runs (exec_spops cf ops []) (World ∅ orc None 0 0) (fun vars w =>
    sp_state (w_heap w) /\
    forall op, shared_members op ->
      runs (exec_spop cf op vars) w (fun vars' w' =>
        sp_state (w_heap w') /\
        forall c b b', w_heap w !! c = Some (SBlock b) -> w_heap w' !! c = Some (SBlock b') ->
          object_kept (cb_val b) (cb_val b'))).
Proof.
  intros Hf. pose proof (exec_spops_shared cf ops [] (World ∅ orc None 0 0) (good_start _ _ _ _) (members_start _ _ _ _) Hf) as Hr.
  eapply runs_mono; [exact Hr|]. intros vars w [Hg Hm]. split; [by apply inv_state, Hg|]. intros op Hop.
  eapply runs_mono; [apply ends_runs, (exec_spop_after cf false); [done|intros _; by apply no_weak_cycle_step, members_shared_safe]|].
  intros vars' w' ([Hi' _] & Hp & _). split; [by apply inv_state|]. intros c b b' Hb Hb'. by eapply Hp.
Qed.
Print Assumptions C42_object_lifetime.

Theorem C42_object_lifetime_weak_partial V (cf : cfg V) ops orc :
  weak_safe_run cf ops [] (World ∅ orc None 0 0) ->
  runs (exec_spops cf ops []) (World ∅ orc None 0 0) (fun vars w =>
    sp_state (w_heap w) /\
    (forall op, weak_safe cf op vars w ->
      runs (exec_spop cf op vars) w (fun vars' w' =>
        sp_state (w_heap w') /\
        forall c b b', w_heap w !! c = Some (SBlock b) -> w_heap w' !! c = Some (SBlock b') ->
          object_kept (cb_val b) (cb_val b')))).
Proof.
  intros Hs. eapply runs_mono; [apply ends_runs, (exec_spops_good cf false); [apply good_start|done]|].
  intros vars w Hg. split; [by apply inv_state, Hg|]. intros op Hc.
  eapply runs_mono; [apply ends_runs, (exec_spop_after cf false); done|].
  intros vars' w' ([Hi' _] & Hp & _). split; [by apply inv_state|]. intros c b b' Hb Hb'. by eapply Hp.
Qed.
Print Assumptions C42_object_lifetime_weak_partial.

Theorem C42_object_lifetime_any_partial V (cf : cfg V) ops op orc :
  match exec_spops cf ops [] (World ∅ orc None 0 0) with
  | Fault f => f = FFreed
  | Done vars w => sp_state (w_heap w) /\
      match exec_spop cf op vars w with
      | Fault f => f = FFreed
      | Done vars' w' => sp_state (w_heap w') /\
          forall c b b', w_heap w !! c = Some (SBlock b) -> w_heap w' !! c = Some (SBlock b') ->
            object_kept (cb_val b) (cb_val b')
      end
  end.
Proof.
  pose proof (exec_spops_good cf true ops [] (World ∅ orc None 0 0) (good_start _ _ _ _) ltac:(done)) as Hr. unfold ends in Hr.
  destruct (exec_spops _ _ _ _) as [vars w|f]; [|by destruct Hr]. split; [by apply inv_state, Hr|].
  pose proof (exec_spop_after cf true op vars w Hr ltac:(done)) as Ha. unfold ends in Ha.
  destruct (exec_spop _ _ _ _) as [vars' w'|f]; [|by destruct Ha]. destruct Ha as ([Hi' _] & Hp & _).
  split; [by apply inv_state|]. intros c b b' Hb Hb'. by eapply Hp.
Qed.
Print Assumptions C42_object_lifetime_any_partial.

(** the shared tail survives the first list and dies with the second; the weak_ptr expires *)
Example C42_example :
  runs (let! vars := exec_spops scD (sp_prog ++ [SoDrop 0]) [] in
        let! a := look_sp (EMem (EVar 0) 0) vars in
        let! vars := exec_spops scD [SoDrop 0] vars in
        let! b := look_sp (EVar 0) vars in
        ret (a, b)) (sw0 []) (fun r _ => r = ((1%Z, Some 2), (0%Z, None))).
Proof. compute_run. Qed.

(** ** C43 *)

(** [sps_block] of [sp_state]: a control block exists exactly as long as some
    handle refers to it.  When all variables are gone, and no objects own each
    other in a cycle, the memory is empty. *)
Theorem C43_no_leak V (cf : cfg V) ops orc :
  Forall shared_members ops ->
  runs (exec_spops cf ops []) (World ∅ orc None 0 0) (fun vars w =>
    sp_state (w_heap w) /\
    runs (drop_all cf vars) w (fun _ w' => sp_state (w_heap w') /\ (no_owner_cycle (w_heap w) -> w_heap w' = ∅))).
Proof.
  intros Hf. pose proof (exec_spops_shared cf ops [] (World ∅ orc None 0 0) (good_start _ _ _ _) (members_start _ _ _ _) Hf) as Hr.
  eapply runs_mono; [exact Hr|]. intros vars w [Hg Hm]. split; [by apply inv_state, Hg|].
  eapply runs_mono; [apply ends_runs, (drop_all_good cf false); [done|intros _; by apply drops_safe, members_shared_safe]|]. intros [] w' (Hg' & Hfew & _).
  split; [by apply inv_state, Hg'|]. intros Hc. apply no_vars_empty; [done|]. by eapply fewer_owner.
Qed.
Print Assumptions C43_no_leak.

Theorem C43_no_leak_weak_partial V (cf : cfg V) ops orc :
  weak_safe_run cf ops [] (World ∅ orc None 0 0) ->
  runs (exec_spops cf ops []) (World ∅ orc None 0 0) (fun vars w =>
    sp_state (w_heap w) /\
    (weak_safe_run cf (drops vars) vars w ->
     runs (drop_all cf vars) w (fun _ w' => sp_state (w_heap w') /\ (no_owner_cycle (w_heap w) -> w_heap w' = ∅)))).
Proof.
  intros Hs. eapply runs_mono; [apply ends_runs, (exec_spops_good cf false); [apply good_start|done]|].
  intros vars w Hg. split; [by apply inv_state, Hg|]. intros Hc.
  eapply runs_mono; [apply ends_runs, (drop_all_good cf false); done|]. intros [] w' (Hg' & Hfew & _).
  split; [by apply inv_state, Hg'|]. intros Hno. apply no_vars_empty; [done|]. by eapply fewer_owner.
Qed.
Print Assumptions C43_no_leak_weak_partial.

Theorem C43_no_leak_any_partial V (cf : cfg V) ops orc :
  match (let! vars := exec_spops cf ops [] in let! h := get_heap in do! drop_all cf vars in ret h) (World ∅ orc None 0 0) with
  | Done h w => sp_state (w_heap w) /\ (no_owner_cycle h -> w_heap w = ∅)
  | Fault f => f = FFreed
  end.
Proof.
  pose proof (exec_spops_good cf true ops [] (World ∅ orc None 0 0) (good_start _ _ _ _) ltac:(done)) as Hr. unfold ends in Hr.
  unfold bind. destruct (exec_spops _ _ _ _) as [vars w|f]; [|by destruct Hr]. unfold get_heap.
  pose proof (drop_all_good cf true vars w Hr ltac:(done)) as Hd. unfold ends in Hd.
  destruct (drop_all _ _ _) as [[] w'|f]; [|by destruct Hd]. destruct Hd as (Hg' & Hfew & _). unfold ret.
  split; [by apply inv_state, Hg'|]. intros Hno. apply no_vars_empty; [done|]. by eapply fewer_owner.
Qed.
Print Assumptions C43_no_leak_any_partial.

Example C43_example :
  runs (let! vars := exec_spops scD sp_prog [] in let! h := get_heap in do! drop_all scD vars in ret (length vars, size h)) (sw0 [])
    (fun r w' => r = (3, 6) /\ w_heap w' = ∅).
Proof. compute_run. Qed.

(** ** C44: lock() of a weak_ptr that has not expired; one that has expired
    hands out the dead object. *)

Theorem C44_lock_partial V (cf : cfg V) w l x c :
  sp_state (w_heap w) -> holds (w_heap w) l x -> h_rc x = Some c -> 0 < owners (w_heap w) c ->
  runs (wp_expired cf l) w (fun e w' => e = false /\ w' = w) /\
  runs (let! y := wp_lock cf l in make_var y) w (fun a w' =>
    sp_state (w_heap w') /\ w_heap w !! a = None /\ w_heap w' !! a = Some (SVar (Handle KShared (Some c) (Some c))) /\
    owners (w_heap w') c = S (owners (w_heap w) c) /\ others_keep (w_heap w) (w_heap w') [(a, 0)]).
Proof.
  intros Hs Hx Hc Hp. pose proof (state_inv _ Hs) as Hi. split.
  - eapply runs_wp_expired; [done..|]. intros e He. split; [|done]. apply He. by exists c.
  - rbind. eapply runs_wp_lock; [done..|]. intros Hi'. apply runs_new_local. simpl. intros a Ha. set (h := w_heap w) in *.
    split; [apply inv_state; by apply inv_newvar|].
    destruct (keep_add1 h KShared (Some c) []) as [K1 K2].
    assert (Han : h !! a = None).
    { destruct (h !! a) as [cell|] eqn:E; [|done]. unfold add1 in Ha. exfalso. destruct (decide (c = a)) as [->|Hn].
      - by rewrite lookup_alter, E in Ha.
      - by rewrite lookup_alter_ne, E in Ha. }
    split; [done|]. split; [apply lookup_insert|]. split.
    + unfold owners. rewrite (refs_perm _ _ _ _ (handles_insert_new _ _ _ Ha)). simpl. rewrite refs_cons, decide_True by done.
      by rewrite (refs_perm _ _ _ _ (handles_add1 h KShared (Some c))).
    + split.
      * intros l' y Hl' Hy. apply K1; [set_solver|]. unfold holds in *. destruct (decide (l'.1 = a)) as [He|Hn].
        -- exfalso. rewrite He, lookup_insert in Hy. destruct Hy as [H0 _]. destruct l'; simpl in *; subst. set_solver.
        -- by rewrite lookup_insert_ne in Hy.
      * intros b y _ Hb. rewrite lookup_insert_ne by congruence. apply K2; [set_solver|done].
Qed.
Print Assumptions C44_lock_partial.

(** The weak_ptr has expired, yet lock() returns a pointer that is not empty,
    and reading through that pointer or dropping it is undefined. *)
Theorem C44_lock_expired_refuted : exists (cf : cfg nat) ops,
  Forall shared_members ops /\
  runs (let! vars := exec_spops cf ops [] in
        match vars with
        | [a] => let! e := wp_expired cf (a, 0) in let! y := wp_lock cf (a, 0) in ret (e, y)
        | _ => fail FNull
        end) (sw0 []) (fun r _ => r.1 = true /\ r.2 <> null KShared) /\
  (let! vars := exec_spops cf ops [] in
   match vars with
   | [a] => let! y := wp_lock cf (a, 0) in let! b := make_var y in sp_deref cf (b, 0)
   | _ => fail FNull
   end) (sw0 []) = Fault FRaw /\
  (let! vars := exec_spops cf ops [] in
   match vars with
   | [a] => let! y := wp_lock cf (a, 0) in let! b := make_var y in drop_var cf b
   | _ => fail FNull
   end) (sw0 []) = Fault FRaw.
Proof.
  exists scD, [SoMake 7 []; SoWeak (EVar 0); SoDrop 0]. split; [repeat constructor|].
  split; [compute_run|]. split; by vm_compute.
Qed.
Print Assumptions C44_lock_expired_refuted.

Example C44_example :
  runs (let! vars := exec_spops scD (sp_prog ++ [SoLock (EVar 2)]) [] in look_sp (EVar 3) vars) (sw0 []) (fun r _ => r = (3%Z, Some 2)).
Proof. compute_run. Qed.

(** ** C45: copy assignment of weak_ptr *)

Theorem C45_weak_assign_partial V (cf : cfg V) w l l' x y :
  sp_state (w_heap w) -> holds (w_heap w) l x -> holds (w_heap w) l' y -> h_kind x = KWeak ->
  (l = l' -> forall c, h_rc x = Some c -> 0 < owners (w_heap w) c \/ 1 < watchers (w_heap w) c) ->
  runs (wp_assign cf l l') w (fun _ w' => exists h', only_heap w h' w' /\
    sp_state h' /\ holds h' l (Handle KWeak (h_rc y) (h_rc y)) /\ others_keep (w_heap w) h' [l] /\ evolves (w_heap w) h').
Proof.
  intros Hs Hx Hy Hk Hself. pose proof (state_inv _ Hs) as Hi. eapply (runs_wp_assign cf w l l' x y); [done..| |].
  - intros Hl c b Hc Hb. rewrite (sps_use _ Hs c b Hb), (sps_weak _ Hs c b Hb). destruct (Hself Hl c Hc); lia.
  - intros h' Hi' Hl Hk' He. exists h'. split; [done|]. split; [by apply inv_state|]. done.
Qed.
Print Assumptions C45_weak_assign_partial.

(** Assigning to itself the only weak_ptr to a dead object reads freed memory. *)
Theorem C45_self_assign_refuted : exists (cf : cfg nat) ops,
  Forall shared_members ops /\
  (let! vars := exec_spops cf ops [] in
   match vars with
   | [a] => wp_assign cf (a, 0) (a, 0)
   | _ => fail FNull
   end) (sw0 []) = Fault FFreed.
Proof.
  exists scD, [SoMake 7 []; SoWeak (EVar 0); SoDrop 0]. split; [repeat constructor|]. by vm_compute.
Qed.
Print Assumptions C45_self_assign_refuted.

(** Move assignment leaves two weak_ptrs that are counted once: dropping both
    fails an assertion, or (without assertions) the control block is never
    freed. *)
Theorem C45_move_assign_refuted : exists ops : list (spop nat),
  Forall shared_members ops /\
  (let! vars := exec_spops scD ops [] in
   match vars with
   | [a; b; c] => do! wp_move_assign scD (c, 0) (b, 0) in drop_all scD [c; b; a]
   | _ => fail FNull
   end) (sw0 []) = Fault FAssert /\
  runs (let! vars := exec_spops scR ops [] in
        match vars with
        | [a; b; c] => do! wp_move_assign scR (c, 0) (b, 0) in drop_all scR [c; b; a]
        | _ => fail FNull
        end) (sw0 []) (fun _ w' => size (w_heap w') = 1).
Proof.
  exists [SoMake 7 []; SoWeak (EVar 0); SoNull KWeak]. split; [repeat constructor|]. split; [by vm_compute|]. compute_run.
Qed.
Print Assumptions C45_move_assign_refuted.

Example C45_example :
  runs (let! vars := exec_spops scD (sp_prog ++ [SoNull KWeak; SoAssign (EVar 3) (EVar 2); SoAssign (EVar 3) (EVar 3); SoAssign (EVar 2) (EVar 0)]) [] in
        let! a := look_sp (EVar 2) vars in let! b := look_sp (EVar 3) vars in do! drop_all scD vars in ret (a, b)) (sw0 [])
    (fun r w' => r = ((1%Z, None), (2%Z, None)) /\ w_heap w' = ∅).
Proof. compute_run. Qed.

(** ** C46 *)

Theorem C46_make_shared V (cf : cfg V) w v ks :
  sp_state (w_heap w) -> w_err w = None ->
  runs (make_shared cf v ks) w (fun x w' =>
    match w_err w' with
    | None => exists c, x = Handle KShared (Some c) (Some c) /\ w_heap w !! c = None /\
        w_heap w' = <[c := SBlock (CB (c_dflt cf) 1 0 (Some (v, null <$> ks)))]> (w_heap w)
    | Some e => x = null KShared /\ w_heap w' = w_heap w /\ (e = EBadAlloc \/ c_kind cf <> Nothrow /\ exists code, e = EElem code)
    end).
Proof.
  intros Hs He. unfold make_shared. eapply runs_make_shared; [by apply state_inv|done|..].
  - intros c orc Hc h' Hi'. simpl. by exists c.
  - intros orc e nc Hne. simpl. done.
Qed.
Print Assumptions C46_make_shared.

(** ... and what the owner of the result sees. *)
Theorem C46_unique_owner V (cf : cfg V) w v ks :
  sp_state (w_heap w) -> w_err w = None ->
  runs (let! x := make_shared cf v ks in make_var x) w (fun a w' =>
    sp_state (w_heap w') /\ (forall b c, w_heap w !! b = Some c -> w_heap w' !! b = Some c) /\
    match w_err w' with
    | None => exists c, sp_use_count cf (a, 0) w' = Done 1%Z w' /\ sp_unique cf (a, 0) w' = Done true w' /\
        sp_deref cf (a, 0) w' = Done (c, v, null <$> ks) w'
    | Some _ => sp_get (a, 0) w' = Done None w' /\ sp_use_count cf (a, 0) w' = Done 0%Z w'
    end).
Proof.
  intros Hs He. rbind. unfold make_shared. pose proof (state_inv _ Hs) as Hi. eapply runs_make_shared; [done|done|..].
  - intros c orc Hc h' Hi'. apply runs_new_local. simpl. intros a Ha. set (x := Handle KShared (Some c) (Some c)) in *.
    assert (Hi2 : inv (<[a:=SVar x]> h') [] []) by (by apply inv_newvar). unfold set_heap. simpl.
    set (w' := World (<[a:=SVar x]> h') orc None (S (w_allocs w)) (S (w_ctors w))).
    assert (Hac : a <> c) by (intros ->; unfold h' in Ha; by rewrite lookup_insert in Ha).
    assert (Hx : holds (w_heap w') (a, 0) x) by (unfold holds; simpl; by rewrite lookup_insert).
    pose proof (shows cf w' (a, 0) x Hi2 Hx) as (_ & Hn & Hu & _ & _). cbn [h_rc x] in Hn, Hu.
    assert (Hblk : w_heap w' !! c = Some (SBlock (CB (c_dflt cf) 1 0 (Some (v, null <$> ks))))).
    { simpl. rewrite lookup_insert_ne by done. unfold h'. apply lookup_insert. }
    assert (Hown : owners (w_heap w') c = 1).
    { pose proof (owners_use _ _ _ _ _ Hi2 eq_refl Hblk) as Ho. simpl in Ho. unfold w'. simpl. lia. }
    split; [by apply inv_state|]. split.
    + intros b y Hb. unfold h'. rewrite !lookup_insert_ne; [done|congruence|]. intros ->. unfold h' in Ha.
      apply lookup_insert_None in Ha as [Ha _]. congruence.
    + exists c. rewrite Hown in Hn, Hu. split; [done|]. split; [done|].
      assert (Hr : runs (sp_deref cf (a, 0)) w' (fun r w2 => r = (c, v, null <$> ks) /\ w2 = w')).
      { unfold sp_deref. rbind. eapply runs_get_handle; [exact Hx|]. rbind. apply runs_assert; [done|]. simpl.
        rbind. eapply runs_get_block; [exact Hblk|]. by apply runs_ret. }
      destruct Hr as (r & w2 & Hr & -> & ->). done.
  - intros orc e nc _. apply runs_new_local. simpl. intros a Ha. unfold set_heap. simpl.
    set (w' := World (<[a:=SVar (null KShared)]> (w_heap w)) orc (Some e) (S (w_allocs w)) nc).
    assert (Hi2 : inv (w_heap w') [] []) by (apply inv_newvar; [done|by apply inv_null]).
    assert (Hx : holds (w_heap w') (a, 0) (null KShared)) by (unfold holds; simpl; by rewrite lookup_insert).
    pose proof (shows cf w' (a, 0) _ Hi2 Hx) as (Hg & Hn & _).
    split; [by apply inv_state|]. split; [|done]. intros b y Hb. rewrite lookup_insert_ne; [done|congruence].
Qed.
Print Assumptions C46_unique_owner.

Example C46_example :
  runs (let! x := make_shared scD 7 [KShared] in let! a := make_var x in look_sp (EVar 0) [a]) (sw0 []) (fun r _ => r = (1%Z, Some 7)) /\
  runs (make_shared scD 7 [KShared]) (sw0 [EvFail 0]) (fun x w' => x = null KShared /\ w_err w' = Some EBadAlloc /\ w_heap w' = ∅) /\
  runs (make_shared scD 7 [KShared]) (sw0 [EvOk 1; EvFail 3]) (fun x w' => x = null KShared /\ w_err w' = Some (EElem 3) /\ w_heap w' = ∅).
Proof. split_and!; compute_run. Qed.

(** ** C47: objects that own other objects *)

(** Whatever variable goes away in whatever graph of objects (in which a weak
    member leads back to its object only if another weak_ptr stays), every object and control block that
    loses its last handle is destroyed once and the rest stays; without
    ownership cycles exactly the objects reachable from variables are left. *)
Theorem C47_drop_partial V (cf : cfg V) w a x :
  sp_state (w_heap w) -> release_safe (w_heap w) (a, 0) -> w_heap w !! a = Some (SVar x) ->
  runs (drop_var cf a) w (fun _ w' => exists h', only_heap w h' w' /\
    sp_state h' /\ h' !! a = None /\ objects_kept (w_heap w) h' /\ others_keep (delete a (w_heap w)) h' [] /\
    (no_owner_cycle (w_heap w) -> forall c, alive h' c <-> reachable h' c)).
Proof.
  intros Hs Hc Ha. apply ends_runs. eapply ends_drop_var; [by apply state_inv|done|done|]. intros h' Hi' Hsh.
  assert (Hi0 : inv (w_heap w) [] []) by (by apply state_inv).
  exists h'. split; [done|]. split; [by apply inv_state|]. split.
  { destruct (h' !! a) as [[y|b]|] eqn:E; [| |done].
    - apply (sh_var _ _ Hsh) in E. by rewrite lookup_delete in E.
    - destruct (sh_blk _ _ Hsh _ _ E) as (b0 & Hb0 & _). by rewrite lookup_delete in Hb0. }
  split.
  { intros c b' Hb'. destruct (proj2 (evolves_shrinks _ _ Hsh) _ _ Hb') as (b & Hb & Hr). apply lookup_delete_Some in Hb as [_ Hb]. by exists b. }
  split; [by apply keep_shrinks|]. intros Hno c. split.
  - apply alive_reachable; [done|]. eapply fewer_owner; [|exact Hno]. intros k d e Hm. eapply fewer_delvar. by eapply fewer_shrinks.
  - intros Hr. assert (Hp : 0 < refs KShared c (handles h' ++ [])).
    { rewrite app_nil_r. apply reachable_rooted in Hr. by eapply (kept_rooted h' h' [] []); [apply shrinks_refl|..]. }
    destruct (owned_alive _ _ _ _ Hi' Hp) as (b & v & hs & Hb & Hv & _). exists b. split; [done|]. rewrite Hv. by eexists.
Qed.
Print Assumptions C47_drop_partial.

(** Parent and child: the child's weak_ptr is the only one to the parent.
    Dropping the parent reads a control block that has been freed. *)
Theorem C47_weak_back_reference_refuted : exists ops : list (spop nat),
  exec_spops scD ops [] (sw0 []) = Fault FFreed /\ exec_spops scR ops [] (sw0 []) = Fault FFreed.
Proof.
  exists [SoMake 1 [KShared]; SoMake 2 [KWeak];
          SoAssign (EMem (EVar 0) 0) (EVar 1); SoAssign (EMem (EVar 1) 0) (EVar 0);
          SoDrop 1; SoDrop 0].
  split; by vm_compute.
Qed.
Print Assumptions C47_weak_back_reference_refuted.

(** More generally: an object with weak_ptrs, all of them in objects that are
    reachable only through the variable that goes away, cannot be destroyed
    without reading freed memory. *)
Theorem C47_unwatched_refuted V (cf : cfg V) w a x c :
  sp_state (w_heap w) -> no_owner_cycle (w_heap w) -> w_heap w !! a = Some (SVar x) -> refers KShared c x ->
  0 < watchers (w_heap w) c -> ~ watched_without (w_heap w) (a, 0) c ->
  drop_var cf a w = Fault FFreed.
Proof.
  intros Hs Hno Ha Hx Hw Hn. set (h := w_heap w) in *. pose proof (state_inv _ Hs) as Hi.
  assert (He : ends true (drop_var cf a) w (fun _ _ => False)).
  { unfold drop_var. estep. eapply runs_get_handle; [unfold holds; simpl; fold h; rewrite Ha; done|]. estep. eapply runs_free_cell; [exact Ha|].
    fold h. eapply ends_destroy; simpl; [by apply inv_delvar|]. intros h' Hi' Hsh Hk.
    assert (Hb : exists b, h !! c = Some (SBlock b)) by (apply (sps_block _ Hs); lia). destruct Hb as [b Hb].
    pose proof (sps_weak _ Hs _ _ Hb) as Hwb. destruct (Hk c b) as (b' & Hb' & Hp); [done| |lia|].
    { rewrite lookup_delete_ne; [done|]. intros ->. congruence. }
    pose proof (inv_state _ Hi') as Hs'. rewrite (sps_weak _ Hs' _ _ Hb') in Hp. unfold watchers in Hp.
    assert (Hp' : 0 < refs KWeak c (handles h')) by lia. apply refs_pos in Hp' as (y & Hy & Hyr). apply elem_of_handles in Hy as (e & ce & Hce & Hy).
    apply Hn. assert (Hback : forall d, reachable h' d -> reachable_without h (a, 0) d).
    { induction 1 as [a' z d Ha' Hz|d d' Hd IH Hm].
      - apply (sh_var _ _ Hsh) in Ha'. apply lookup_delete_Some in Ha' as [Hna Ha']. eapply rw_var; [|exact Ha'|exact Hz]. congruence.
      - apply (fewer_shrinks _ _ Hsh), fewer_delvar in Hm. apply member_holds in Hm as (j & z & Hbd & Hz & Hzr). fold h in Hbd, Hz.
        eapply rw_member; [exact IH|exact Hbd| |exact Hz|exact Hzr]. destruct Hbd as [bd Hbd]. congruence. }
    destruct ce as [z|be].
    - simpl in Hy. apply elem_of_list_singleton in Hy as ->. apply (sh_var _ _ Hsh) in Hce. apply lookup_delete_Some in Hce as [Hna Hce].
      exists (e, 0), z. split; [congruence|]. split; [unfold holds; simpl; by rewrite Hce|]. split; [done|]. intros [be Hbe]. simpl in Hbe. congruence.
    - simpl in Hy. destruct (cb_val be) as [[v hs]|] eqn:Hv; [|by apply elem_of_nil in Hy].
      assert (Hm : member h' KWeak e c) by (by exists be, v, hs, y).
      assert (Hre : reachable h' e).
      { apply alive_reachable; [done| |exists be; rewrite Hv; by split; [|eexists]]. eapply fewer_owner; [|exact Hno].
        intros k d d' Hm'. eapply fewer_delvar. by eapply fewer_shrinks. }
      apply (fewer_shrinks _ _ Hsh), fewer_delvar in Hm. apply member_holds in Hm as (j & z & Hbd & Hz & Hzr). fold h in Hbd, Hz.
      exists (e, j), z. split; [destruct Hbd as [bd Hbd]; congruence|]. split; [done|]. split; [done|]. intros _. by apply Hback. }
  unfold ends in He. destruct (drop_var cf a w) as [? ?|f]; [done|]. by destruct He as [_ ->].
Qed.
Print Assumptions C47_unwatched_refuted.

(** parent and child with a weak_ptr back, and another weak_ptr to the parent *)
Definition pc_prog : list (spop nat) :=
  [SoMake 1 [KShared]; SoMake 2 [KWeak];
   SoAssign (EMem (EVar 0) 0) (EVar 1); SoAssign (EMem (EVar 1) 0) (EVar 0); SoWeak (EVar 0); SoDrop 1].
Definition pc_cells (use weak : Z) : list (addr * scell nat) :=
  [ (1%positive, SBlock (CB 0 1 weak (Some (1, [Handle KShared (Some 3%positive) (Some 3%positive)]))));
    (2%positive, SVar (Handle KShared (Some 1%positive) (Some 1%positive)));
    (3%positive, SBlock (CB 0 use 0 (Some (2, [Handle KWeak (Some 1%positive) (Some 1%positive)])))) ].
Definition pc_heap : gmap addr (scell nat) :=
  list_to_map (pc_cells 1 2 ++ [(5%positive, SVar (Handle KWeak (Some 1%positive) (Some 1%positive)))]).
(** the same without the other weak_ptr *)
Definition pc_heap0 : gmap addr (scell nat) := list_to_map (pc_cells 1 1).
Lemma pc_members h k c d : h = pc_heap \/ h = pc_heap0 -> member h k c d ->
  k = KShared /\ c = 1%positive /\ d = 3%positive \/ k = KWeak /\ c = 3%positive /\ d = 1%positive.
Proof.
  intros Hh (b & v & hs & x & Hb & Hv & Hx & Hk & Hd).
  assert (Hin : (c, SBlock b) ∈ pc_cells 1 2 ++ [(5%positive, SVar (Handle KWeak (Some 1%positive) (Some 1%positive)))] \/ (c, SBlock b) ∈ pc_cells 1 1).
  { destruct Hh as [-> | ->]; apply elem_of_list_to_map_2 in Hb; auto. }
  assert (Hc : (c, v, hs) = (1%positive, 1, [Handle KShared (Some 3%positive) (Some 3%positive)]) \/
    (c, v, hs) = (3%positive, 2, [Handle KWeak (Some 1%positive) (Some 1%positive)])).
  { destruct Hin as [Hin|Hin]; repeat (apply elem_of_cons in Hin as [Hin|Hin]; [simplify_eq; simpl in Hv; simplify_eq; auto|]);
      by apply elem_of_nil in Hin. }
  clear Hin. destruct Hc as [Hc|Hc]; simplify_eq; apply elem_of_list_singleton in Hx as ->; simpl in *; simplify_eq; auto.
Qed.

Example C47_watched_example :
  (exists w, exec_spops scD pc_prog [] (sw0 []) = Done [2%positive; 5%positive] w /\ w_heap w = pc_heap) /\
  sp_state pc_heap /\ ~ no_weak_cycle pc_heap /\ release_safe pc_heap (2%positive, 0) /\
  runs (drop_var scD 2) (World pc_heap [] None 0 0) (fun _ w' => size (w_heap w') = 2).
Proof.
  assert (Hrun : exists w, exec_spops scD pc_prog [] (sw0 []) = Done [2%positive; 5%positive] w /\ w_heap w = pc_heap).
  { eexists. split; [vm_compute; reflexivity|]. apply (bool_decide_unpack _). by vm_compute. }
  split; [exact Hrun|]. split.
  { destruct Hrun as (w & He & <-). pose proof (C42_object_lifetime_any_partial nat scD pc_prog (SoNull KWeak) []) as Hs.
    change (World ∅ [] None 0 0) with (sw0 []) in Hs. rewrite He in Hs. apply Hs. }
  split.
  { intros Hc. apply (Hc 3%positive 1%positive).
    - eexists _, _, _, _. split; [reflexivity|]. split; [reflexivity|]. split; [by left|done].
    - apply rtc_once. exists KShared. eexists _, _, _, _. split; [reflexivity|]. split; [reflexivity|]. split; [by left|done]. }
  split.
  { intros c d _ Hm _. apply pc_members in Hm as [(? & _)|(_ & -> & ->)]; [done| |by left].
    exists (5%positive, 0), (Handle KWeak (Some 1%positive) (Some 1%positive)). split; [done|]. split; [done|]. split; [done|].
    intros [b Hb]. done. }
  compute_run.
Qed.

(** without it the drop fails *)
Example C47_unwatched_example :
  (exists w, exec_spops scD (pc_prog ++ [SoDrop 1]) [] (sw0 []) = Done [2%positive] w /\ w_heap w = pc_heap0) /\
  sp_state pc_heap0 /\ no_owner_cycle pc_heap0 /\ watchers pc_heap0 1 = 1 /\ ~ watched_without pc_heap0 (2%positive, 0) 1 /\
  drop_var scD 2 (World pc_heap0 [] None 0 0) = Fault FFreed.
Proof.
  assert (Hrun : exists w, exec_spops scD (pc_prog ++ [SoDrop 1]) [] (sw0 []) = Done [2%positive] w /\ w_heap w = pc_heap0).
  { eexists. split; [vm_compute; reflexivity|]. apply (bool_decide_unpack _). by vm_compute. }
  split; [exact Hrun|]. split.
  { destruct Hrun as (w & He & <-). pose proof (C42_object_lifetime_any_partial nat scD (pc_prog ++ [SoDrop 1]) (SoNull KWeak) []) as Hs.
    change (World ∅ [] None 0 0) with (sw0 []) in Hs. rewrite He in Hs. apply Hs. }
  split.
  { intros c Hc. assert (Hind : forall e d, tc (member pc_heap0 KShared) e d -> e = 1%positive /\ d = 3%positive).
    { induction 1 as [e d Hab|e d f Hab _ [-> ->]]; (apply pc_members in Hab as [(_ & ? & ?)|(? & _)]; [|done|by right]); [done|]. subst. done. }
    apply Hind in Hc as [-> ?]. done. }
  split; [by vm_compute|]. split.
  { assert (Hno : forall c, ~ reachable_without pc_heap0 (2%positive, 0) c).
    { induction 1 as [a x c Hn Ha Hx|]; [|done]. apply elem_of_list_to_map_2 in Ha.
      repeat (apply elem_of_cons in Ha as [Ha|Ha]; [simplify_eq|]); by apply elem_of_nil in Ha. }
    intros ([a j] & x & Hn & Hx & Hr & Hre). simpl in Hre. unfold holds in Hx. simpl in Hx. destruct (pc_heap0 !! a) as [[z|b]|] eqn:E; [| |done].
    - destruct Hx as [-> ->]. apply elem_of_list_to_map_2 in E.
      repeat (apply elem_of_cons in E as [E|E]; [simplify_eq|]); by apply elem_of_nil in E.
    - apply (Hno a). apply Hre. by exists b. }
  by vm_compute.
Qed.

Example C47_example :
  (* a chain of three objects goes with its head *)
  runs (let! vars := exec_spops scD
         [SoMake 1 [KShared]; SoMake 2 [KShared]; SoMake 3 [KShared; KWeak];
          SoAssign (EMem (EVar 0) 0) (EVar 1); SoAssign (EMem (EVar 1) 0) (EVar 2);
          SoNull KShared; SoMake 9 []; SoAssign (EMem (EVar 2) 1) (EVar 4); SoDrop 2; SoDrop 1] [] in
        let! h := get_heap in
        let! vars := exec_spop scD (SoDrop 0) vars in
        let! h' := get_heap in
        ret (size h, size h', length vars)) (sw0 []) (fun r _ => r = (7, 3, 2)).
Proof. compute_run. Qed.

(** ** C48: p = p->next *)

Theorem C48_assign_from_member_partial V (cf : cfg V) w a x c j y :
  sp_state (w_heap w) -> release_safe (w_heap w) (a, 0) ->
  w_heap w !! a = Some (SVar x) -> refers KShared c x -> holds (w_heap w) (c, j) y -> h_kind y = KShared ->
  runs (sp_assign cf (a, 0) (c, j)) w (fun _ w' => exists h', only_heap w h' w' /\
    sp_state h' /\ h' !! a = Some (SVar y) /\ others_keep (w_heap w) h' [(a, 0)] /\ evolves (w_heap w) h').
Proof.
  intros Hs Hc Ha Hx Hy Hk. assert (Hxa : holds (w_heap w) (a, 0) x) by (unfold holds; simpl; by rewrite Ha).
  apply ends_runs. eapply (ends_sp_assign cf false w (a, 0) (c, j) x y); [by apply state_inv|done|done|done| |by apply Hx|done|].
  - intros [b Hb]. simpl in Hb. congruence.
  - intros h' Hi' Hl Hkeep He. exists h'. split; [done|]. split; [by apply inv_state|]. split; [|done].
    destruct (proj1 (proj1 He a)) as [z Hz]; [by exists x|]. unfold holds in Hl. simpl in Hl. rewrite Hz in Hl. by destruct Hl as [_ ->].
Qed.
Print Assumptions C48_assign_from_member_partial.

(** p = std::move(p->next) destroys the object p owns before it reads p->next. *)
Theorem C48_move_from_member_refuted : exists (ops : list (spop nat)) e,
  Forall shared_members ops /\
  (let! vars := exec_spops scD ops [] in
   let! l := eval scD vars e in
   match vars, l with
   | [a], Some l => sp_move_assign scD (a, 0) l
   | _, _ => fail FNull
   end) (sw0 []) = Fault FFreed.
Proof.
  exists [SoMake 1 [KShared]; SoMake 2 [KShared]; SoAssign (EMem (EVar 0) 0) (EVar 1); SoDrop 1], (EMem (EVar 0) 0).
  split; [repeat constructor|]. by vm_compute.
Qed.
Print Assumptions C48_move_from_member_refuted.

Example C48_example :
  runs (let! vars := exec_spops scD
         [SoMake 1 [KShared]; SoMake 2 [KShared]; SoAssign (EMem (EVar 0) 0) (EVar 1); SoDrop 1;
          SoAssign (EVar 0) (EMem (EVar 0) 0)] [] in
        let! h := get_heap in
        let! r := look_sp (EVar 0) vars in
        ret (r, size h)) (sw0 []) (fun r _ => r = ((1%Z, Some 2), 2)).
Proof. compute_run. Qed.

(** ** C56: the allocator argument of make_shared_a *)

(** The storage of a control block is obtained from, and later returned to, a
    default constructed allocator, whatever allocator is passed. *)
Theorem C56_make_shared_allocator_partial V (cf : cfg V) w v ks :
  sp_state (w_heap w) -> w_err w = None ->
  runs (make_shared_a cf (c_dflt cf) v ks) w (fun x w' =>
    w_err w' = None -> exists c b, h_rc x = Some c /\ w_heap w' !! c = Some (SBlock b) /\ cb_alloc b = c_dflt cf).
Proof.
  intros Hs He. eapply runs_make_shared; [by apply state_inv|done|..].
  - intros c orc Hc h' Hi' _. exists c, (CB (c_dflt cf) 1 0 (Some (v, null <$> ks))). split; [done|]. split; [apply lookup_insert|done].
  - intros orc e nc Hne. simpl. done.
Qed.
Print Assumptions C56_make_shared_allocator_partial.

Theorem C56_make_shared_allocator_refuted : exists (cf : cfg nat) al,
  al <> c_dflt cf /\
  runs (let! x := make_shared_a cf al 7 [] in
        match h_rc x with Some c => let! b := get_block c in ret (cb_alloc b) | None => fail FNull end) (sw0 []) (fun r w' =>
    w_err w' = None /\ r = c_dflt cf).
Proof. exists scD, 5. split; [done|]. compute_run. Qed.
Print Assumptions C56_make_shared_allocator_refuted.

Example C56_example :
  runs (let! x := make_shared_a scD 0 7 [] in
        match h_rc x with Some c => let! b := get_block c in ret (cb_alloc b) | None => fail FNull end) (sw0 []) (fun r w' => r = 0).
Proof. compute_run. Qed.

(** ** C57: what the operations do to handles *)

(** Constructors; the result is put into a variable of its own. *)
Theorem C57_copy V (cf : cfg V) w l x :
  sp_state (w_heap w) -> holds (w_heap w) l x ->
  runs (let! y := match h_kind x with KShared => sp_copy cf l | KWeak => wp_copy cf l end in make_var y) w (fun a w' =>
    exists h', only_heap w h' w' /\ sp_state h' /\ w_heap w !! a = None /\ h' !! a = Some (SVar x) /\
    others_keep (w_heap w) h' [(a, 0)] /\ objects_kept (w_heap w) h').
Proof.
  intros Hs Hx. pose proof (state_inv _ Hs) as Hi. pose proof (handle_eta x (holds_ptr _ _ _ _ _ Hi Hx)) as Heta.
  eapply (runs_ctor w _ (add1 (w_heap w) (h_kind x) (h_rc x)) x []).
  - destruct (h_kind x) eqn:Hk; [by eapply runs_sp_copy|]. eapply runs_wp_copy; [done..|]. intros _. by rewrite Heta at 3.
  - assert (Hi' : inv (add1 (w_heap w) (h_kind x) (h_rc x)) [Handle (h_kind x) (h_rc x) (h_rc x)] []).
    { apply inv_add1; [done|]. intros c Hc. destruct (holds_inv_block _ _ _ _ Hi Hx Hc) as (b & Hb & _ & _ & Hu). exists b. auto. }
    by rewrite <-Heta in Hi'.
  - apply keep_add1.
  - apply evolves_add1.
  - apply dom_add1.
  - intros a h' Ha Ha1 -> Hi' Hk Ho. eexists. split; [done|]. split; [by apply inv_state|]. split; [done|]. split; [apply lookup_insert|]. done.
Qed.
Print Assumptions C57_copy.

(** weak_ptr from shared_ptr *)
Theorem C57_weak_from_shared V (cf : cfg V) w l x :
  sp_state (w_heap w) -> holds (w_heap w) l x ->
  runs (let! y := wp_copy cf l in make_var y) w (fun a w' =>
    exists h', only_heap w h' w' /\ sp_state h' /\ w_heap w !! a = None /\ h' !! a = Some (SVar (Handle KWeak (h_rc x) (h_rc x))) /\
    others_keep (w_heap w) h' [(a, 0)] /\ objects_kept (w_heap w) h').
Proof.
  intros Hs Hx. pose proof (state_inv _ Hs) as Hi.
  eapply (runs_ctor w _ (add1 (w_heap w) KWeak (h_rc x)) (Handle KWeak (h_rc x) (h_rc x)) []).
  - by eapply runs_wp_copy.
  - apply inv_add1; [done|]. intros c Hc. destruct (holds_inv_block _ _ _ _ Hi Hx Hc) as (b & Hb & _). by exists b.
  - apply keep_add1.
  - apply evolves_add1.
  - apply dom_add1.
  - intros a h' Ha Ha1 -> Hi' Hk Ho. eexists. split; [done|]. split; [by apply inv_state|]. split; [done|]. split; [apply lookup_insert|]. done.
Qed.
Print Assumptions C57_weak_from_shared.

Theorem C57_move V (w : world (scell V)) l x :
  sp_state (w_heap w) -> holds (w_heap w) l x ->
  runs (let! y := match h_kind x with KShared => sp_move l | KWeak => wp_move l end in make_var y) w (fun a w' =>
    exists h', only_heap w h' w' /\ sp_state h' /\ w_heap w !! a = None /\ h' !! a = Some (SVar x) /\ holds h' l (null (h_kind x)) /\
    others_keep (w_heap w) h' [(a, 0); l] /\ objects_kept (w_heap w) h').
Proof.
  intros Hs Hx. pose proof (state_inv _ Hs) as Hi.
  eapply (runs_ctor w _ (put (w_heap w) l (null (h_kind x))) x [l]).
  - destruct (h_kind x) eqn:Hk; [by eapply runs_sp_move|by eapply runs_wp_move].
  - by apply inv_put_null.
  - by eapply keep_put.
  - by eapply evolves_put.
  - apply dom_put.
  - intros a h' Ha Ha1 -> Hi' Hk Ho. eexists. split; [done|]. split; [by apply inv_state|]. split; [done|]. split; [apply lookup_insert|].
    split; [|done]. apply holds_newvar; [done|]. by eapply holds_put.
Qed.
Print Assumptions C57_move.

Theorem C57_swap V (w : world (scell V)) l l' x y :
  sp_state (w_heap w) -> holds (w_heap w) l x -> holds (w_heap w) l' y -> h_kind x = h_kind y ->
  runs (sp_swap l l') w (fun _ w' => exists h', only_heap w h' w' /\
    sp_state h' /\ holds h' l y /\ holds h' l' x /\ others_keep (w_heap w) h' [l; l'] /\ evolves (w_heap w) h').
Proof.
  intros Hs Hx Hy Hk. eapply runs_sp_swap; [by apply state_inv|done..|].
  intros h' Hi' Hl Hl' Hkeep He. exists h'. split; [done|]. split; [by apply inv_state|]. done.
Qed.
Print Assumptions C57_swap.

Theorem C57_reset V (cf : cfg V) w l x :
  sp_state (w_heap w) -> release_safe (w_heap w) l -> stored (w_heap w) l x ->
  runs (match h_kind x with KShared => sp_reset cf l | KWeak => wp_reset cf l end) w (fun _ w' => exists h', only_heap w h' w' /\
    sp_state h' /\ holds h' l (null (h_kind x)) /\ others_keep (w_heap w) h' [l] /\ evolves (w_heap w) h').
Proof.
  intros Hs Hc Hx. pose proof (state_inv _ Hs) as Hi. pose proof (stored_lok _ _ _ Hx) as Hl. destruct Hx as [Hx _].
  destruct (h_kind x) eqn:Hk.
  - apply ends_runs. eapply (ends_sp_reset cf false w l x); [done..|]. intros h' Hi' Hl' Hkeep He. exists h'. split; [done|]. split; [by apply inv_state|]. done.
  - eapply (runs_wp_reset cf w l x); [done..|]. intros h' Hi' Hl' Hkeep He. exists h'. split; [done|]. split; [by apply inv_state|]. done.
Qed.
Print Assumptions C57_reset.

(** Copy assignment of shared_ptr, from any handle, also from itself and from
    within the object whose owner is assigned to. *)
Theorem C57_assign V (cf : cfg V) w l l' x y :
  sp_state (w_heap w) -> release_safe (w_heap w) l -> stored (w_heap w) l x -> holds (w_heap w) l' y ->
  h_kind x = KShared -> h_kind y = KShared ->
  runs (sp_assign cf l l') w (fun _ w' => exists h', only_heap w h' w' /\
    sp_state h' /\ holds h' l y /\ others_keep (w_heap w) h' [l] /\ evolves (w_heap w) h').
Proof.
  intros Hs Hc Hx Hy Hkx Hky. pose proof (stored_lok _ _ _ Hx) as Hl. destruct Hx as [Hx _].
  apply ends_runs. eapply (ends_sp_assign cf false w l l' x y); [by apply state_inv|done..|].
  intros h' Hi' Hl' Hkeep He. exists h'. split; [done|]. split; [by apply inv_state|]. done.
Qed.
Print Assumptions C57_assign.

(** Move assignment of shared_ptr from a variable; self move assignment empties it. *)
Theorem C57_move_assign V (cf : cfg V) w l a x y :
  sp_state (w_heap w) -> release_safe (w_heap w) l -> stored (w_heap w) l x -> w_heap w !! a = Some (SVar y) ->
  h_kind x = KShared -> h_kind y = KShared ->
  runs (sp_move_assign cf l (a, 0)) w (fun _ w' => exists h', only_heap w h' w' /\
    sp_state h' /\ holds h' l (if decide (l = (a, 0)) then null KShared else y) /\ holds h' (a, 0) (null KShared) /\
    others_keep (w_heap w) h' [l; (a, 0)] /\ evolves (w_heap w) h').
Proof.
  intros Hs Hc Hx Hy Hkx Hky. pose proof (stored_lok _ _ _ Hx) as Hl. destruct Hx as [Hx _].
  assert (Hya : holds (w_heap w) (a, 0) y) by (unfold holds; simpl; by rewrite Hy).
  apply ends_runs. eapply (ends_sp_move_assign cf false w l (a, 0) x y); [by apply state_inv|done..| |].
  - intros Hb. rewrite put_is_block in Hb. destruct Hb as [b Hb]. simpl in Hb. congruence.
  - intros h' Hi' Hl' Hl2 Hkeep He. exists h'. split; [done|]. split; [by apply inv_state|]. done.
Qed.
Print Assumptions C57_move_assign.

(** A state that meets the hypotheses: two objects, one a member of the other,
    two owners of the second, one weak_ptr *)
Definition sp_heap : gmap addr (scell nat) :=
  {[ 1%positive := SBlock (CB 0 1 0 (Some (10, [Handle KShared (Some 2%positive) (Some 2%positive)])));
     2%positive := SBlock (CB 0 2 1 (Some (20, [null KShared])));
     3%positive := SVar (Handle KShared (Some 1%positive) (Some 1%positive));
     4%positive := SVar (Handle KShared (Some 2%positive) (Some 2%positive));
     5%positive := SVar (Handle KWeak (Some 2%positive) (Some 2%positive)) ]}.
Lemma sp_heap_inv a c : sp_heap !! a = Some c ->
  (a, c) ∈ [ (1%positive, SBlock (CB 0 1 0 (Some (10, [Handle KShared (Some 2%positive) (Some 2%positive)]))));
     (2%positive, SBlock (CB 0 2 1 (Some (20, [null KShared]))));
     (3%positive, SVar (Handle KShared (Some 1%positive) (Some 1%positive)));
     (4%positive, SVar (Handle KShared (Some 2%positive) (Some 2%positive)));
     (5%positive, SVar (Handle KWeak (Some 2%positive) (Some 2%positive))) ].
Proof.
  intros Ha. unfold sp_heap in Ha. repeat (apply lookup_insert_Some in Ha as [[<- <-]|[_ Ha]]; [set_solver|]).
  apply lookup_singleton_Some in Ha as [<- <-]. set_solver.
Qed.
Lemma sp_heap_state : sp_state sp_heap.
Proof.
  assert (Hh : handles sp_heap ≡ₚ [Handle KShared (Some 2%positive) (Some 2%positive); null KShared;
    Handle KShared (Some 1%positive) (Some 1%positive); Handle KShared (Some 2%positive) (Some 2%positive);
    Handle KWeak (Some 2%positive) (Some 2%positive)]).
  { unfold sp_heap. rewrite !handles_insert_new by done. simpl. unfold handles. rewrite map_to_list_singleton. done. }
  assert (Hr : forall k c, refs k c (handles sp_heap) = refs k c [Handle KShared (Some 2%positive) (Some 2%positive); null KShared;
    Handle KShared (Some 1%positive) (Some 1%positive); Handle KShared (Some 2%positive) (Some 2%positive);
    Handle KWeak (Some 2%positive) (Some 2%positive)]) by (intros k c; by apply refs_perm).
  unfold owners, watchers in *.
  split.
  - intros c b Hb. unfold owners. rewrite Hr. apply sp_heap_inv in Hb. rewrite !elem_of_cons in Hb.
    destruct Hb as [Hb|[Hb|[Hb|[Hb|[Hb|Hb%elem_of_nil]]]]]; simplify_eq; done.
  - intros c b Hb. unfold watchers. rewrite Hr. apply sp_heap_inv in Hb. rewrite !elem_of_cons in Hb.
    destruct Hb as [Hb|[Hb|[Hb|[Hb|[Hb|Hb%elem_of_nil]]]]]; simplify_eq; done.
  - intros c b Hb. unfold owners. rewrite Hr. apply sp_heap_inv in Hb. rewrite !elem_of_cons in Hb.
    destruct Hb as [Hb|[Hb|[Hb|[Hb|[Hb|Hb%elem_of_nil]]]]]; try done; simplify_eq; simpl; (split; [vm_compute; lia|intros _; exact (ex_intro _ _ eq_refl)]).
  - intros c. unfold owners, watchers. rewrite !Hr. split.
    + intros [b Hb]. apply sp_heap_inv in Hb. rewrite !elem_of_cons in Hb.
      destruct Hb as [Hb|[Hb|[Hb|[Hb|[Hb|Hb%elem_of_nil]]]]]; simplify_eq; vm_compute; lia.
    + intros Hp. assert (Hk : exists k, 0 < refs k c [Handle KShared (Some 2%positive) (Some 2%positive); null KShared;
        Handle KShared (Some 1%positive) (Some 1%positive); Handle KShared (Some 2%positive) (Some 2%positive);
        Handle KWeak (Some 2%positive) (Some 2%positive)]).
      { match type of Hp with 0 < ?a + ?b => destruct (decide (0 < a)); [by exists KShared|exists KWeak; lia] end. }
      destruct Hk as [k Hk]. apply refs_pos in Hk as (x & Hx & _ & Hc). rewrite !elem_of_cons in Hx.
      destruct Hx as [->|[->|[->|[->|[->|Hx%elem_of_nil]]]]]; try done; simpl in Hc; simplify_eq; (eexists; unfold sp_heap; reflexivity).
  - intros x Hx. rewrite Hh, !elem_of_cons in Hx. destruct Hx as [->|[->|[->|[->|[->|Hx%elem_of_nil]]]]]; done.
Qed.
Lemma sp_heap_members k c d : member sp_heap k c d -> k = KShared /\ c = 1%positive /\ d = 2%positive.
Proof.
  intros (b & v & hs & x & Hb & Hv & Hx & Hk & Hd). apply sp_heap_inv in Hb. rewrite !elem_of_cons in Hb.
  destruct Hb as [Hb|[Hb|[Hb|[Hb|[Hb|Hb%elem_of_nil]]]]]; try done; simplify_eq; simpl in Hv; simplify_eq; apply elem_of_list_singleton in Hx as ->; simpl in *; by simplify_eq.
Qed.
Lemma sp_heap_safe : no_weak_cycle sp_heap /\ no_owner_cycle sp_heap.
Proof.
  split.
  - intros c d Hm. apply sp_heap_members in Hm as [? _]. done.
  - intros c Hc. assert (Hind : forall a b, tc (member sp_heap KShared) a b -> a = 1%positive /\ b = 2%positive).
    { induction 1 as [a b Hab|a b e Hab _ [-> ->]]; [by apply sp_heap_members in Hab as (_ & -> & ->)|].
      apply sp_heap_members in Hab as (_ & _ & ?). done. }
    apply Hind in Hc as [-> ?]. done.
Qed.

Example C57_example :
  sp_state sp_heap /\ (forall l, release_safe sp_heap l) /\ no_owner_cycle sp_heap /\
  stored sp_heap (1%positive, 0) (Handle KShared (Some 2%positive) (Some 2%positive)) /\
  stored sp_heap (5%positive, 0) (Handle KWeak (Some 2%positive) (Some 2%positive)) /\
  runs (do! sp_assign scD (3%positive, 0) (1%positive, 0) in
        do! sp_reset scD (4%positive, 0) in
        do! sp_swap (2%positive, 0) (4%positive, 0) in
        let! n := sp_use_count scD (5%positive, 0) in
        let! h := get_heap in ret (n, size h)) (World sp_heap [] None 0 0) (fun r _ => r = (1%Z, 4)).
Proof.
  split; [apply sp_heap_state|]. split; [intros l; apply no_weak_cycle_safe, sp_heap_safe|]. split; [apply sp_heap_safe|]. split; [|split].
  - split; [exists 10, [Handle KShared (Some 2%positive) (Some 2%positive)]; done|]. intros _.
    eapply reachable_var with (a := 3%positive); done.
  - split; [done|]. intros [b Hb]. done.
  - compute_run.
Qed.

(** ** C74: builds with assertions stop misuse *)

(** Dereferencing a pointer for which get() returns null ends in a failing
    assertion; after any program (that has not touched a freed control block,
    see C47), this is the only way in which dereferencing a shared_ptr fails. *)
Theorem C74_pointer_checked V (cf : cfg V) ops orc :
  c_dbg cf = true ->
  match exec_spops cf ops [] (World ∅ orc None 0 0) with
  | Fault f => f = FFreed
  | Done vars w =>
    forall l x, holds (w_heap w) l x ->
      (sp_get l w = Done None w -> sp_deref cf l w = Fault FAssert) /\
      (forall c, h_kind x = KShared -> sp_get l w = Done (Some c) w -> exists v hs, sp_deref cf l w = Done (c, v, hs) w)
  end.
Proof.
  intros Hd. pose proof (C41_use_count_any_partial V cf ops orc) as Hany.
  destruct (exec_spops _ _ _ _) as [vars w|f]; [|done]. rename Hany into Hsh. intros l x Hx.
  destruct (Hsh l x Hx) as (Hg & _ & _ & _ & Hv). split.
  - clear Hv. unfold sp_get, sp_deref, bind in *. destruct (get_handle l w) as [h w0|f] eqn:Hh; [|done].
    intros Hn. unfold ret in *. injection Hn as Hn Hw. subst w0. unfold assert_. by rewrite Hd, Hn.
  - intros c Hk Hc. rewrite Hc in Hg. injection Hg as Hg. by destruct (Hv c Hk) as [_ H].
Qed.
Print Assumptions C74_pointer_checked.

Example C74_pointer_example :
  match exec_spops scD [SoMake 1 [KShared]; SoReset (EVar 0)] [] (World ∅ [] None 0 0) with
  | Done [a] w => match sp_deref scD (a, 0) w with Fault FAssert => True | _ => False end
  | _ => False
  end.
Proof. by vm_compute. Qed.
