(** * Property C78 for set and for trees that keep equal values *)
From Verif Require Import Asks HonestSet HonestMulti RbAsks RbExtra PropSet.

Section asks.
  Context {V : Type} {L : limit} (cf : cfg V) (comp : V -> V -> bool).

  (** a node is created, and linked if that succeeds *)
  Lemma asks_create_then {A} o x (g : M (tcell V) A) (k : option addr -> M (tcell V) A) :
    silent g -> (forall r, silent (k r)) ->
    asks 1 (let! l := tcreate_node cf o x in let! e := has_err in if (e : bool) then g else k l).
  Proof.
    intros Hg Hk. apply (asks_bind_test 1 0 _ (fun _ => g) k); [apply asks_create_node|done|].
    intros r. apply asks_silent. done.
  Qed.
  Lemma asks_m_insert o x p v : asks 1 (m_insert cf comp o x p v).
  Proof. unfold m_insert. apply asks_silent_bind; [sh|]. intros b. apply asks_create_then; sh. Qed.
  Lemma asks_m_insert_lower o p v : asks 1 (m_insert_lower cf comp o p v).
  Proof. unfold m_insert_lower. apply asks_silent_bind; [sh|]. intros b. apply asks_create_then; sh. Qed.
  Lemma asks_insert_equal_lower o v : asks 1 (insert_equal_lower cf comp o v).
  Proof. unfold insert_equal_lower. do 3 (apply asks_silent_bind; [sh|]; intros ?). apply asks_m_insert_lower. Qed.
  Lemma asks_emplace_equal o v : asks 1 (emplace_equal cf comp o v).
  Proof. apply asks_create_then; sh. Qed.
  Lemma asks_emplace_all vs : forall o, asks (length vs) (emplace_equal_all cf comp o vs).
  Proof.
    induction vs as [|v vs IH]; intros o; cbn [emplace_equal_all]; [apply asks_silent; sh|].
    apply (asks_bind_test 1 (length vs) (emplace_equal cf comp o v) (fun _ => ret tt)); [apply asks_emplace_equal|sh|]. intros _. apply IH.
  Qed.
End asks.

(** Insertion of a value that is not there, and emplacement: one allocation and
    one construction.  insert_nothrow of a value that is there: none. *)
Theorem C78_set_adds V (cf : cfg V) comp o x hint :
  (forall w r w', w_err w = None -> insert_unique cf comp o x w = Done r w' -> asked (if r.2 then 1 else 0) w w') /\
  (forall w r w', w_err w = None -> insert_unique_at cf comp o hint x w = Done r w' -> asked 0 w w' \/ asked 1 w w') /\
  asks 1 (emplace_unique cf comp o x) /\ asks 1 (emplace_hint_unique cf comp o hint x).
Proof.
  split_and!.
  - intros w r w' He Hr. unfold insert_unique, bind in Hr. destruct (insert_unique_pos _ _ _ w) as [[y [p|]] w1|] eqn:E; [..|done].
    + destruct (sh_insert_unique_pos _ _ _ _ _ _ _ _ E) as (_ & He1 & Ha1 & Hc1).
      destruct (m_insert cf comp o y p x w1) as [pos w2|] eqn:E2; [|done]. injection Hr as <- <-. simpl.
      eapply asked_from; [eapply asks_m_insert; [|exact E2]; congruence|done..].
    + destruct (sh_insert_unique_pos _ _ _ _ _ _ _ _ E) as (_ & He1 & Ha1 & Hc1).
      destruct (deref y w1) as [z w2|] eqn:E2; [|done]. destruct (sh_deref _ _ _ _ _ E2) as (_ & He2 & Ha2 & Hc2).
      injection Hr as <- <-. simpl. eapply asked_same; [by apply asked_0|congruence..].
  - intros w r w' He Hr. unfold insert_unique_at, bind in Hr. destruct (insert_hint_unique_pos _ _ _ _ w) as [[y [p|]] w1|] eqn:E; [..|done].
    + destruct (sh_insert_hint_unique_pos _ _ _ _ _ _ _ _ _ E) as (_ & He1 & Ha1 & Hc1). right.
      eapply asked_from; [eapply asks_m_insert; [|exact Hr]; congruence|done..].
    + destruct (sh_insert_hint_unique_pos _ _ _ _ _ _ _ _ _ E) as (_ & He1 & Ha1 & Hc1). left.
      destruct (sh_deref _ _ _ _ _ Hr) as (_ & He2 & Ha2 & Hc2). eapply asked_same; [by apply asked_0|congruence..].
  - apply asks_create_then; sh.
  - apply asks_create_then; sh.
Qed.
Print Assumptions C78_set_adds.

(** In particular no hint makes the insertion of a value that is there ask for
    anything, or of one that is not there ask twice. *)
Theorem C78_set_insert V (cf : cfg V) comp o xs hf w x v i :
  swo comp -> set_is comp o xs hf w -> w_err w = None -> targ_is xs hf x v ->
  runs (insert_unique_at cf comp o (tpos (t_hdr o) xs i) x) w (fun _ w' =>
    (absent comp v xs.*2 -> asked 1 w w') /\ (~ absent comp v xs.*2 -> w' = w)) /\
  runs (insert_unique cf comp o x) w (fun _ w' =>
    (absent comp v xs.*2 -> asked 1 w w') /\ (~ absent comp v xs.*2 -> w' = w)).
Proof.
  intros Hswo [t Hs]%set_is_sin He Hx. pose proof (targ_rd _ _ _ _ _ _ _ _ Hs Hx) as Hrd.
  assert (forall i a u, xs !! i = Some (a, u) -> comp u v = false -> comp v u = false -> ~ absent comp v xs.*2) as Hpres.
  { intros j a u Hj H1 H2 Hab. apply (Hab u); [|done]. apply elem_of_list_fmap. exists (a, u). split; [done|by eapply elem_of_list_lookup_2]. }
  assert (forall a w', tcreate_node cf o x w = Done a w' -> asked 1 w w') as Hcr by (intros a w' Hr; by eapply asks_create_node).
  assert (forall (a : addr) pre post h' t' orc w1, xs = pre ++ post -> sin comp o (pre ++ (a, v) :: post) h' hf t' ->
    asked 1 w w1 -> w_err w1 = None -> w_allocs w1 = S (w_allocs w) -> w_ctors w1 = S (w_ctors w) ->
    let w' := World h' orc None (S (w_allocs w)) (S (w_ctors w)) in
    (absent comp v xs.*2 -> asked 1 w w') /\ (~ absent comp v xs.*2 -> w' = w)) as Hnew.
  { intros a pre post h' t' orc w1 Hxs Hs' Has He1 Ha1 Hc1. split.
    - intros _. eapply asked_same; [exact Has|simpl; congruence..].
    - intros Hn. exfalso. apply Hn. intros u Hu. subst xs. destruct Hs' as (_ & _ & _ & A1).
      by eapply (asc_absent comp pre a v post A1 u). }
  split.
  - eapply insert_at_spec; [done|exact Hs|done|done| | |].
    + intros a pre post h' t' orc Hxs Ha Hs' Hmk. apply Hcr in Hmk as Has. by eapply Hnew.
    + intros j a u Hj H1 H2. split; [|done]. intros Hab. by destruct (Hpres j a u Hj H1 H2).
    + intros w' e Hw' He' _ Hfar Hmk. split; [intros _; by eapply Hcr|]. intros Hn. destruct Hn. by apply far_absent.
  - eapply insert_unique_spec; [done|exact Hs|done|done| | |].
    + intros a pre post h' t' orc Hxs Ha Hs' Hmk. apply Hcr in Hmk as Has. by eapply Hnew.
    + intros j a u Hj H1 H2. split; [|done]. intros Hab. by destruct (Hpres j a u Hj H1 H2).
    + intros w' e Hw' He' _ Hfar Hmk. split; [intros _; by eapply Hcr|]. intros Hn. destruct Hn. by apply far_absent.
Qed.
Print Assumptions C78_set_insert.

(** Trees that keep equal values: every insertion is one of each. *)
Theorem C78_multi_adds V (cf : cfg V) comp o x hint vs :
  asks 1 (insert_equal cf comp o x) /\ asks 1 (insert_equal_lower cf comp o x) /\ asks 1 (insert_equal_at cf comp o hint x) /\
  asks 1 (emplace_equal cf comp o x) /\ asks 1 (emplace_hint_equal cf comp o hint x) /\
  asks (length vs) (emplace_equal_all cf comp o vs).
Proof.
  split_and!.
  - unfold insert_equal. apply asks_silent_bind; [sh|]. intros [y [p|]]; [apply asks_m_insert|apply asks_fail].
  - apply asks_insert_equal_lower.
  - unfold insert_equal_at. apply asks_silent_bind; [sh|]. intros [y [p|]]; [apply asks_m_insert|apply asks_insert_equal_lower].
  - apply asks_emplace_equal.
  - apply asks_create_then; sh.
  - apply asks_emplace_all.
Qed.
Print Assumptions C78_multi_adds.

(** Searching, erasing, moving, swapping, clearing: nothing. *)
Theorem C78_set_nothing V (cf : cfg V) comp o other al x pos first last ks :
  asks_nothing (tset_new (V := V) al) /\ asks_nothing (t_destroy (V := V) o) /\ asks_nothing (t_clear (V := V) o) /\
  asks_nothing (t_erase cf o pos) /\ asks_nothing (t_erase_range cf o first last) /\
  asks_nothing (t_erase_key cf comp o x) /\ asks_nothing (t_erase_keys cf comp o ks) /\
  asks_nothing (t_swap (V := V) o other) /\ asks_nothing (t_move_ctor (V := V) other) /\ asks_nothing (t_move_assign (V := V) o other) /\
  asks_nothing (t_find comp o x) /\ asks_nothing (lower_bound comp o x) /\ asks_nothing (upper_bound comp o x) /\
  asks_nothing (equal_range comp o x) /\ asks_nothing (t_count comp o x) /\
  asks_nothing (t_size (V := V) o) /\ asks_nothing (t_empty (V := V) o) /\ asks_nothing (t_begin (V := V) o) /\
  asks_nothing (rb_increment (V := V) pos) /\ asks_nothing (rb_decrement (V := V) pos) /\ asks_nothing (tread (V := V) pos).
Proof. split_and!; match goal with |- asks_nothing ?m => change (silent m) end; sh. Qed.
Print Assumptions C78_set_nothing.

(** Copying: one of each for every element, until one fails. *)
Theorem C78_set_copy V (cf : cfg V) comp o other xs ys hv2 hf w :
  set_is comp o xs (hv2 ∪ hf) w -> set_own comp (t_alloc other) (t_hdr other) ys hv2 -> hv2 ##ₘ hf -> w_err w = None ->
  runs (t_copy cf o other) w (fun _ w' => asked (length ys) w w').
Proof.
  intros [t Hs]%set_is_sin Ho2 Hd He.
  assert (forall b, b ∈ t_hdr other :: ys.*1 -> is_Some ((hv2 ∪ hf) !! b)) as Hin2.
  { intros b Hb. destruct Ho2 as (_ & t2 & <- & _ & _ & _ & Hdom & _). apply Hdom in Hb. apply lookup_union_is_Some. by left. }
  eapply copy_spec_asks; [|done|exact Hs|by apply own_there| |].
  - destruct Hs as ([_ _ _ _ Hnone] & _). intros Heq. destruct (Hin2 (t_hdr other)) as [c Hc]; [by left|].
    rewrite <-Heq in Hc. rewrite Hnone in Hc; [done|by left].
  - intros h' orc zs t' Hzs Hs'. left. simpl. split; [done|]. lia.
  - by intros.
Qed.
Print Assumptions C78_set_copy.

Example C78_set_example :
  set_is nat_lt exO exX ∅ (tw1 []) /\ ~ absent nat_lt 20 exX.*2 /\ absent nat_lt 17 exX.*2 /\
  runs (insert_unique tcD nat_lt exO (TAVal 20)) (tw1 [EvFail 1]) (fun r w' => r.2 = false /\ w_err w' = None /\ w_allocs w' = 0) /\
  runs (insert_unique_at tcD nat_lt exO (t_end exO) (TAVal 17)) (tw1 []) (fun r w' => w_allocs w' = 1 /\ w_ctors w' = 1) /\
  runs (emplace_unique tcD nat_lt exO (TAVal 20)) (tw1 []) (fun r w' => r.2 = false /\ w_allocs w' = 1 /\ w_ctors w' = 1) /\
  runs (t_copy tcD exO exO2) (tw2 []) (fun _ w' => w_err w' = None /\ w_allocs w' = 3 /\ w_ctors w' = 3).
Proof.
  split; [apply ex_set|]. split.
  { intros H. apply (H 20); [|done]. by apply (bool_decide_unpack _); vm_compute. }
  split; [|split_and!; compute_run].
  intros u Hu [H1 H2]. unfold nat_lt in *. apply Nat.ltb_ge in H1, H2. assert (u = 17) as -> by lia.
  revert Hu. by apply (bool_decide_unpack _); vm_compute.
Qed.
