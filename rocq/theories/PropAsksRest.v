(** * Property C78 for vector and the pointers *)
From Verif Require Import Asks HonestVec VecOps PropVector.
From Verif Require HonestSp.

(** ** vector: at most one block per call *)

Section allocs.
  Context {V : Type} (cf : cfg V).

  Lemma allocs_tick n {C} : allocs_upto (S n) (tick_alloc : M C unit).
  Proof. intros w a w' [= <- <-]. simpl. lia. Qed.
  Lemma allocs_put_err e {C} n : allocs_upto n (put_err e : M C unit).
  Proof. intros w a w' [= <- <-]. simpl. lia. Qed.
  Lemma allocs_alloc {C} (c : C) : allocs_upto 1 (alloc_cell c).
  Proof.
    intros w a w'. unfold alloc_cell, tick_alloc, next_event, put_err, get_heap, put_heap, ret, bind. simpl.
    destruct (w_orc w) as [|[?|?] ?]; simpl; intros [= <- <-]; simpl; lia.
  Qed.
  Lemma allocs_allocate al n : allocs_upto 1 (allocate cf al n).
  Proof.
    unfold allocate. cbv zeta. destruct (decide _).
    - apply allocs_bind_r; [apply allocs_tick|]. intros _. apply allocs_bind_r; [apply allocs_put_err|]. intros _. apply allocs_silent. sh.
    - apply allocs_bind_r; [apply allocs_alloc|]. intros r. apply allocs_silent. sh.
  Qed.
  Lemma allocs_builds {C A} n (m : M C A) : builds n m -> allocs_upto 0 m.
  Proof. intros Hm w a w' Hr. destruct (Hm _ _ _ Hr). lia. Qed.
  Lemma allocs_construct_at p x : allocs_upto 0 (construct_at cf p x).
  Proof.
    unfold construct_at.
    eapply allocs_builds, builds_construct; sh.
  Qed.
End allocs.

Ltac allocs_step :=
  first
  [ apply allocs_fail
  | solve [apply allocs_silent; sh]
  | apply allocs_put_err
  | apply allocs_construct_at
  | apply allocs_bind_l; [solve [apply allocs_silent; sh | apply allocs_construct_at]|intros]
  | apply allocs_bind_r; [|intros; solve [apply allocs_silent; sh]] ].

Section vector.
  Context {V : Type} (cf : cfg V).

  Lemma allocs_copy_loop fuel : forall first last output cur,
    allocs_upto 0 (uninitialised_copy_loop cf fuel first last output cur).
  Proof.
    induction fuel as [|fuel IH]; intros first last output cur; cbn [uninitialised_copy_loop]; [apply allocs_fail|].
    destruct (decide _); [allocs_step|]. do 2 allocs_step. destruct a0; [allocs_step|].
    do 2 allocs_step. apply IH.
  Qed.
  Lemma allocs_shift_loop fuel : forall val first, allocs_upto 0 (shift_loop cf fuel val first).
  Proof.
    induction fuel as [|fuel IH]; intros val first; cbn [shift_loop]; [apply allocs_fail|].
    destruct (decide _); [allocs_step|]. do 3 allocs_step. destruct a1; [allocs_step|].
    do 2 allocs_step. apply IH.
  Qed.
  Lemma allocs_resize_loop fuel : forall v count a, allocs_upto 0 (resize_loop cf fuel v count a).
  Proof.
    induction fuel as [|fuel IH]; intros v count a; cbn [resize_loop]; [apply allocs_fail|].
    allocs_step. destruct (pltb _ _); [|allocs_step].
    do 2 allocs_step. destruct a2; [allocs_step|]. allocs_step. apply IH.
  Qed.
  Lemma allocs_do_reserve v n : allocs_upto 1 (do_reserve cf v n).
  Proof.
    unfold do_reserve. apply allocs_bind_r; [apply allocs_allocate|]. intros p.
    allocs_step. destruct a; [allocs_step|].
    apply allocs_bind_l; [apply allocs_copy_loop|]. intros _.
    apply allocs_silent; sh.
  Qed.
  Lemma allocs_reserve v n : allocs_upto 1 (vec_reserve cf v n).
  Proof.
    unfold vec_reserve. allocs_step. destruct (decide _); [allocs_step|].
    destruct (decide _); [|apply allocs_do_reserve].
    apply allocs_bind_l; [apply allocs_put_err|]. intros _. allocs_step.
  Qed.
  Lemma allocs_grow v n : allocs_upto 1 (grow cf v n).
  Proof. unfold grow. do 2 allocs_step. apply allocs_reserve. Qed.
  Lemma allocs_insert v pos a : allocs_upto 1 (insert_value cf v pos a).
  Proof.
    unfold insert_value. do 5 allocs_step.
    apply allocs_bind_r.
    { destruct (decide _); [|allocs_step]. apply allocs_bind_r; [apply allocs_grow|]. intros. allocs_step. }
    intros [v' e]. destruct e; [allocs_step|]. do 4 allocs_step.
    apply allocs_bind_l; [apply allocs_shift_loop|]. intros ok. destruct (negb ok); [allocs_step|].
    allocs_step. apply allocs_silent; sh.
  Qed.
  Lemma allocs_push_back v a : allocs_upto 1 (vec_push_back cf v a).
  Proof. unfold vec_push_back, vec_insert. apply allocs_bind_r; [apply allocs_insert|]. intros. allocs_step. Qed.
  Lemma allocs_resize v n a : allocs_upto 1 (vec_resize cf v n a).
  Proof.
    unfold vec_resize. allocs_step. destruct (decide _); [apply allocs_silent; sh|].
    apply allocs_bind_r; [apply allocs_grow|]. intros v'. allocs_step. destruct a1; [allocs_step|].
    apply allocs_resize_loop.
  Qed.
  Lemma allocs_insert_range_loop args : forall v offset res,
    allocs_upto (length args) (insert_range_loop cf v offset res args).
  Proof.
    induction args as [|a args IH]; intros v offset res; cbn [insert_range_loop]; [allocs_step|].
    allocs_step. apply (allocs_bind 1 (length args)); [apply allocs_insert|]. intros r.
    allocs_step. destruct a1; [allocs_step|]. apply IH.
  Qed.
  Lemma allocs_input_loop args : forall v, allocs_upto (length args) (assign_input_loop cf v args).
  Proof.
    induction args as [|a args IH]; intros v; cbn [assign_input_loop]; [allocs_step|].
    apply (allocs_bind 1 (length args)); [apply allocs_push_back|]. intros r.
    allocs_step. destruct a0; [allocs_step|]. apply IH.
  Qed.
End vector.

(** One call asks the allocator for at most one block; a call that is given a
    range element by element for at most one block per element. *)
Theorem C78_vector_adds V (cf : cfg V) v pos n a args :
  allocs_upto 1 (vec_reserve cf v n) /\ allocs_upto 1 (vec_shrink_to_fit cf v) /\
  allocs_upto 1 (vec_push_back cf v a) /\ allocs_upto 1 (vec_emplace_back cf v a) /\
  allocs_upto 1 (vec_insert cf v pos a) /\ allocs_upto 1 (vec_resize cf v n a) /\
  allocs_upto (length args) (vec_insert_range cf v pos args) /\
  allocs_upto (length args) (vec_assign_input cf v args).
Proof.
  split_and!; [apply allocs_reserve| |apply allocs_push_back| |apply allocs_insert|apply allocs_resize|..].
  - unfold vec_shrink_to_fit. do 2 allocs_step. destruct (decide _); [apply allocs_do_reserve|allocs_step].
  - unfold vec_emplace_back. apply allocs_bind_r; [apply allocs_insert|]. intros. allocs_step.
  - unfold vec_insert_range. do 3 allocs_step. apply allocs_bind_r; [apply allocs_insert_range_loop|]. intros. allocs_step.
  - unfold vec_assign_input. cbn [vec_swap swap_data vec_new]. allocs_step.
    apply allocs_bind_r; [apply allocs_input_loop|]. intros. allocs_step.
Qed.
Print Assumptions C78_vector_adds.

(** Looking at a vector, emptying, destroying, comparing and moving it. *)
Theorem C78_vector_nothing V (cf : cfg V) v o i eqv :
  asks_nothing (vec_size (V := V) v) /\ asks_nothing (vec_capacity (V := V) v) /\ asks_nothing (vec_index cf v i) /\
  asks_nothing (vec_at cf v i) /\ asks_nothing (vec_front cf v) /\ asks_nothing (vec_back cf v) /\
  asks_nothing (vec_data cf v) /\ asks_nothing (vec_equal (V := V) eqv v o) /\
  asks_nothing (vec_clear (V := V) v) /\ asks_nothing (vec_destroy (V := V) v) /\
  asks_nothing (vec_move_assign (V := V) v o) /\ asks_nothing (vec_move_assign_self (V := V) v).
Proof. split_and!; (change (silent ?m) || idtac); match goal with |- asks_nothing ?m => change (silent m) end; sh. Qed.
Print Assumptions C78_vector_nothing.

(** assign and copying get their storage with one request, which the elements
    then fit into: exactly one call of the allocator, also for no elements. *)
Section assign.
  Context {V : Type} (cf : cfg V).
  Notation W := (world (vblock V)).

  (** push_back with room left *)
  Lemma runs_push_room v l cap hv hf a x (w : W) (Q : _ -> W -> Prop) :
    cfg_ok cf -> vec_owns cf v l cap hv -> heap_is w hv hf -> w_err w = None -> arg_outside hf a x -> length l < cap ->
    (forall v' w', w_allocs w' = w_allocs w ->
       ((w_err w' = None /\ exists hv', vec_owns cf v' (l ++ [x]) cap hv' /\ heap_is w' hv' hf) \/
        (w_err w' <> None /\ exists cap' hv', vec_owns cf v' l cap' hv' /\ heap_is w' hv' hf)) -> Q v' w') ->
    runs (vec_push_back cf v a) w Q.
  Proof.
    intros Hcf Ho Hh He Ha Hlt HQ. eapply runs_push_back; try done; [by apply arg_good_outside|].
    intros v' w' (_ & Hna & _ & Hp). cbv zeta in Hp. rewrite decide_False in Hna, Hp by lia. rewrite Nat.add_0_r in Hna.
    apply HQ; [done|]. destruct Hp as [(? & ?)|(e & He' & _ & ?)]; [by left|right]. split; [by rewrite He'|done].
  Qed.
  Lemma runs_assign_n_loop_room n a x : forall v l cap hv hf (w : W) (Q : _ -> W -> Prop),
    cfg_ok cf -> vec_owns cf v l cap hv -> heap_is w hv hf -> w_err w = None -> arg_outside hf a x -> length l + n <= cap ->
    (forall v' l' cap' hv' w', w_allocs w' = w_allocs w -> vec_owns cf v' l' cap' hv' -> heap_is w' hv' hf -> Q v' w') ->
    runs (assign_n_loop cf v n a) w Q.
  Proof.
    induction n as [|n IH]; intros v l cap hv hf w Q Hcf Ho Hh He Ha Hn HQ; cbn [assign_n_loop].
    - apply runs_ret. by eapply HQ.
    - rbind. eapply runs_push_room; try done; [lia|]. intros v' w' Hna [(He' & hv' & Ho' & Hh')|(He' & cap' & hv' & Ho' & Hh')];
        rbind; apply runs_has_err.
      + rewrite He'. eapply IH; try done; [rewrite app_length; simpl; lia|].
        intros v2 l2 cap2 hv2 w2 Hna2 Ho2 Hh2. eapply HQ; try done. congruence.
      + destruct (w_err w'); [|done]. apply runs_ret. by eapply HQ.
  Qed.
  Lemma runs_assign_ptr_loop_room bs src xs fuel : forall i v l cap hv hf (w : W) (Q : _ -> W -> Prop),
    cfg_ok cf -> vec_owns cf v l cap hv -> heap_is w hv hf -> w_err w = None ->
    hf !! bs = Some src -> length xs <= b_room src ->
    (forall k x, xs !! k = Some x -> b_live src !! k = Some x) ->
    i <= length xs -> length xs - i < fuel -> length l + (length xs - i) <= cap ->
    (forall v' l' cap' hv' w', w_allocs w' = w_allocs w -> vec_owns cf v' l' cap' hv' -> heap_is w' hv' hf -> Q v' w') ->
    runs (assign_ptr_loop cf fuel v (Ptr bs i) (Ptr bs (length xs))) w Q.
  Proof.
    induction fuel as [|fuel IH]; intros i v l cap hv hf w Q Hcf Ho Hh He Hbs Hroom Hsrc Hi Hfuel Hn HQ; [lia|]; cbn [assign_ptr_loop].
    case_decide as Heq; [apply runs_ret; by eapply HQ|].
    assert (i < length xs) by (assert (i <> length xs) by congruence; lia).
    destruct (lookup_lt_is_Some_2 xs i) as [x Hx]; [done|].
    rbind. eapply (runs_push_room _ _ _ _ _ _ x); try done; [|lia|].
    { simpl. exists src. repeat split; [done|lia|by apply Hsrc]. }
    intros v' w' Hna [(He' & hv' & Ho' & Hh')|(He' & cap' & hv' & Ho' & Hh')]; rbind; apply runs_has_err.
    - rewrite He'. rbind. eapply runs_padd; [destruct Hh' as [-> Hd']; by apply lookup_union_Some_r|lia|].
      replace (i + 1) with (S i) by lia. eapply IH; try done; [lia|rewrite app_length; simpl; lia|].
      intros v2 l2 cap2 hv2 w2 Hna2 Ho2 Hh2. eapply HQ; try done. congruence.
    - destruct (w_err w'); [|done]. apply runs_ret. by eapply HQ.
  Qed.
End assign.

Lemma runs_assign_ptrs_once V (cf : cfg V) v l cap hv o lo capo ho hf i j w :
  cfg_ok cf -> vec_owns cf v l cap hv -> heap_is w hv hf -> w_err w = None ->
  vec_owns cf o lo capo ho -> (ho = hv \/ ho ⊆ hf) -> i <= j -> j <= length lo ->
  runs (vec_assign_ptrs cf v (vec_pos o i) (vec_pos o j)) w (fun _ w' => w_allocs w' = S (w_allocs w)).
Proof.
  intros Hcf Ho Hh He Hoo Hsub Hij Hj.
  assert (Hsub' : ho ⊆ hv ∪ hf).
  { destruct Hh as [_ Hd]. destruct Hsub as [->|Hs]; [by apply map_union_subseteq_l|].
    etrans; [exact Hs|]. by apply map_union_subseteq_r. }
  destruct Hh as [Hw Hd]. unfold vec_assign_ptrs. rewrite vec_swap_new.
  rbind. apply runs_assert; [done|]. rbind.
  assert (Hdiff : runs (pdiff (vec_pos o j) (vec_pos o i)) w (fun n w' => n = j - i /\ w' = w)).
  { unfold vec_pos. destruct Hoo as [(Hs & _ & _ & -> & _)|(bs & Hs & _)]; rewrite Hs.
    - simpl in Hj. apply runs_pdiff_null. split; [lia|done].
    - by apply runs_pdiff. }
  eapply runs_mono; [apply Hdiff|]. intros n w0 [-> ->].
  pose proof (owns_le _ _ _ _ _ Hoo) as Hle. pose proof (owns_cap_ok _ _ _ _ _ Hcf Hoo) as Hco.
  rbind. eapply (runs_grow _ _ _ _ _ (hv ∪ hf)); try done.
  - by apply owns_new.
  - by apply heap_is_empty.
  - unfold cap_ok in Hco. destruct Hcf as [[??]?]. nia.
  - right. unfold fits. lia.
  - intros v' b hv' w' Hs' Hal' Hfresh Ho' Hh' He' Hna. rbind. apply runs_has_err. rewrite He'.
    assert (Hemp : vec_empty v' = true).
    { destruct Ho' as [(?&?&_)|(? & E1 & E2 & _)]; unfold vec_empty; apply bool_decide_eq_true; simpl in *; congruence. }
    assert (Hgc : j - i <= grow_cap 0 (j - i)).
    { unfold grow_cap. destruct (decide _); lia. }
    unfold vec_pos. destruct Hoo as [(Hs & Hf & Hen & -> & -> & ->)|(bs & Hs & Hf & Hen & _ & Hc & ->)]; rewrite Hs.
    + simpl. rbind. rbind. apply runs_assert; [done|]. apply runs_ret.
      rbind. eapply runs_destroy_tmp; try done. intros w3 Hh3 He3 Ha3 _ _. apply runs_ret. congruence.
    + rbind. rbind. apply runs_assert; [done|].
      assert (Hlt : length (take j lo) = j) by (rewrite take_length; lia).
      rewrite <-Hlt at 2. rewrite <-Hlt at 1.
      eapply (runs_assign_ptr_loop_room _ _ _ (take j lo)); try done.
      { eapply map_subseteq_spec; [done|]. by rewrite lookup_singleton. }
      { simpl. lia. }
      { intros k x Hk. simpl. rewrite lookup_map_seq_0. apply lookup_take_Some in Hk as [? _]. done. }
      { lia. } { simpl. lia. } { simpl. lia. }
      intros v2 l2 cap2 hv2 w2 Hna2 Ho2 Hh2.
      rbind. eapply runs_destroy_tmp; try done. intros w3 Hh3 He3 Ha3 _ _. apply runs_ret. congruence.
  - intros w' e Hhe He' Hna. rbind. apply runs_has_err. rewrite He'. rbind. apply runs_ret.
    rbind. eapply runs_destroy_tmp; try done.
    { apply heap_is_empty. by rewrite Hhe. }
    intros w3 Hh3 He3 Ha3 _ _. apply runs_ret. congruence.
Qed.

Theorem C78_vector_assign V (cf : cfg V) v l cap hv hf w :
  cfg_ok cf -> vec_owns cf v l cap hv -> heap_is w hv hf -> w_err w = None ->
  (forall n a x, bytes_fit cf n -> arg_outside (hv ∪ hf) a x ->
     runs (vec_assign_n cf v n a) w (fun _ w' => w_allocs w' = S (w_allocs w))) /\
  (forall o lo capo ho i j, vec_owns cf o lo capo ho -> (ho = hv \/ ho ⊆ hf) -> i <= j -> j <= length lo ->
     runs (vec_assign_ptrs cf v (vec_pos o i) (vec_pos o j)) w (fun _ w' => w_allocs w' = S (w_allocs w))) /\
  (forall o lo capo ho, vec_owns cf o lo capo ho -> (ho = hv \/ ho ⊆ hf) ->
     runs (vec_copy cf v o) w (fun _ w' => w_allocs w' = S (w_allocs w))).
Proof.
  intros Hcf Ho Hh He. split_and!.
  - intros n a x Hb Ha. destruct Hh as [Hw Hd]. unfold vec_assign_n. rewrite vec_swap_new.
    rbind. apply runs_assert; [done|].
    rbind. eapply (runs_grow _ _ _ _ _ (hv ∪ hf)); try done.
    + by apply owns_new.
    + by apply heap_is_empty.
    + right. unfold fits. lia.
    + intros v' b hv' w' Hs' Hal' Hfresh Ho' Hh' He' Hna. rbind. apply runs_has_err. rewrite He'.
      rbind. eapply runs_assign_n_loop_room; try done.
      { apply grow_cap_ge. }
      intros v2 l2 cap2 hv2 w2 Hna2 Ho2 Hh2.
      rbind. eapply runs_destroy_tmp; try done. intros w3 Hh3 He3 Ha3 _ _. apply runs_ret. congruence.
    + intros w' e Hhe He' Hna. rbind. apply runs_has_err. rewrite He'. rbind. apply runs_ret.
      rbind. eapply runs_destroy_tmp; try done.
      { apply heap_is_empty. by rewrite Hhe. }
      intros w3 Hh3 He3 Ha3 _ _. apply runs_ret. congruence.
  - intros. by eapply runs_assign_ptrs_once.
  - intros o lo capo ho Hoo Hsub. unfold vec_copy.
    assert (m_start o = vec_pos o 0) as ->.
    { unfold vec_pos. by destruct Hoo as [(-> & _)|(b & -> & _)]. }
    rewrite (owns_pos_end _ _ _ _ _ Hoo). eapply runs_assign_ptrs_once; try done. lia.
Qed.
Print Assumptions C78_vector_assign.

Example C78_vector_example :
  let v := vec1 [4; 5] 2 in
  vec_owns cfD v [4; 5] 2 (heap1 [4; 5] 2) /\
  runs (vec_push_back cfD v (AVal 6)) (world1 [4; 5] 2 []) (fun _ w' => w_err w' = None /\ w_allocs w' = 1) /\
  runs (vec_insert_range cfD v (Ptr 1 1) (AVal <$> [1; 2; 3; 4])) (world1 [4; 5] 2 []) (fun _ w' =>
    w_err w' = None /\ w_allocs w' = 2) /\
  runs (vec_assign_n cfD v 7 (AVal 1)) (world1 [4; 5] 2 []) (fun _ w' => w_err w' = None /\ w_allocs w' = 1) /\
  runs (vec_assign_n cfD v 0 (AVal 1)) (world1 [4; 5] 2 []) (fun _ w' => w_err w' = None /\ w_allocs w' = 1) /\
  runs (vec_copy cfD v v) (world1 [4; 5] 2 []) (fun _ w' => w_err w' = None /\ w_allocs w' = 1).
Proof. split; [apply vec1_owns; [simpl; lia|vm_compute; congruence]|]. split_and!; compute_run. Qed.

(** ** the pointers *)

(** make_shared: one allocation and one construction.  A non-null result
    means both succeeded. *)
Theorem C78_make_shared V (cf : cfg V) al v ks :
  asks 1 (SpModel.make_shared_a cf al v ks) /\ asks 1 (SpModel.make_shared cf v ks).
Proof.
  assert (forall al, asks 1 (SpModel.make_shared_a cf al v ks)) as H; [|split; apply H].
  intros al'. unfold SpModel.make_shared_a. apply asks_alloc; [sh|]. intros [c|]; [|apply builds_fail].
  apply builds_bind_silent; [apply builds_construct; sh|sh].
Qed.
Print Assumptions C78_make_shared.

(** No other operation of a pointer program does either. *)
Theorem C78_pointers_nothing V (cf : cfg V) op vars :
  (forall v ks, op <> SpHistSpec.SoMake v ks) -> asks_nothing (SpHistSpec.exec_spop cf op vars).
Proof.
  intros Hop. change (silent (SpHistSpec.exec_spop cf op vars)).
  destruct op; [by destruct (Hop v ks)|..]; cbn [SpHistSpec.exec_spop]; unfold SpHistSpec.with_loc, SpHistSpec.declare; sh.
Qed.
Print Assumptions C78_pointers_nothing.

(** Two make_shared, the second without success, and other operations. *)
Example C78_pointers_example :
  let cf : cfg nat := Cfg true 8 (2^62) 0 Direct 0 in
  runs (SpHistSpec.exec_spops cf [SpHistSpec.SoMake 1 []; SpHistSpec.SoMake 2 []; SpHistSpec.SoCopy (SpHistSpec.EVar 0);
          SpHistSpec.SoWeak (SpHistSpec.EVar 1); SpHistSpec.SoDrop 1] []) (World ∅ [EvOk 5; EvOk 1; EvOk 7; EvFail 3] None 0 0)
    (fun vars w' => w_allocs w' = 2 /\ w_ctors w' = 2).
Proof. cbv zeta. compute_run. Qed.
