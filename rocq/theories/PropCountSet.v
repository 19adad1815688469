(** * Property C75: how many comparisons the tree makes

    Stated over the models RbModel.v and RbMultiModel.v with [settled] of
    CountSpec.v, [tree_is] of RbAnySpec.v and [set_is] of RbSpec.v.  Nothing is
    asked of the comparator unless the theorem says so. *)
From Verif Require Import RbCount RbHistSpec.
From Verif Require Import PropSet.
From Verif Require RbHist.

(** ** Lookup and removal by key *)

Theorem C75_lookup V (cf : cfg V) comp o xs hf w k v :
  tree_is o xs hf w -> targ_is xs hf k v ->
  let h := 2 * Nat.log2 (length xs + 1) in
  settled (fun c => lower_bound c o k) comp w h /\
  settled (fun c => upper_bound c o k) comp w h /\
  settled (fun c => t_find c o k) comp w (h + 1) /\
  settled (fun c => equal_range c o k) comp w (2 * h) /\
  settled (fun c => t_count c o k) comp w (2 * h) /\
  settled (fun c => t_erase_key cf c o k) comp w (2 * h).
Proof.
  intros [t Hs]%tree_is_sin Hk h. pose proof (targ_rd _ _ _ _ _ _ _ _ Hs Hk) as Hrd.
  split; [by eapply lower_bound_count|]. split; [by eapply upper_bound_count|]. split; [by eapply find_count|].
  split; [by eapply equal_range_count|]. split; [by eapply t_count_count|by eapply erase_key_count].
Qed.
Print Assumptions C75_lookup.

(** ** Insertion *)

Theorem C75_insert V (cf : cfg V) comp o xs hf w x v i :
  tree_is o xs hf w -> targ_is xs hf x v -> w_err w = None ->
  let h := 2 * Nat.log2 (length xs + 1) in
  settled (fun c => insert_unique cf c o x) comp w (h + 2) /\
  settled (fun c => emplace_unique cf c o x) comp w (h + 2) /\
  settled (fun c => insert_unique_at cf c o (tpos (t_hdr o) xs i) x) comp w (h + 5) /\
  settled (fun c => emplace_hint_unique cf c o (tpos (t_hdr o) xs i) x) comp w (h + 5).
Proof.
  intros [t Hs]%tree_is_sin Hx He h. pose proof (targ_rd _ _ _ _ _ _ _ _ Hs Hx) as Hrd.
  split; [by eapply insert_unique_count|]. split; [by eapply emplace_unique_count|]. split.
  - eapply settled_mono; [eapply insert_at_count with (f := bound (length xs) + 1); [exact Hs|exact Hrd|done]|unfold h, bound; lia].
  - eapply settled_mono; [eapply emplace_hint_count with (f := bound (length xs) + 1); [exact Hs|exact Hrd|done|done]|unfold h, bound; lia].
Qed.
Print Assumptions C75_insert.

(** trees that keep equal values *)
Theorem C75_insert_equal V (cf : cfg V) comp o xs hf w x v i :
  tree_is o xs hf w -> targ_is xs hf x v -> w_err w = None ->
  let h := 2 * Nat.log2 (length xs + 1) in
  settled (fun c => insert_equal cf c o x) comp w (h + 1) /\
  settled (fun c => insert_equal_lower cf c o x) comp w (h + 1) /\
  settled (fun c => emplace_equal cf c o x) comp w (h + 1) /\
  settled (fun c => insert_equal_at cf c o (tpos (t_hdr o) xs i) x) comp w (h + 3) /\
  settled (fun c => emplace_hint_equal cf c o (tpos (t_hdr o) xs i) x) comp w (h + 3).
Proof.
  intros [t Hs]%tree_is_sin Hx He h. pose proof (targ_rd _ _ _ _ _ _ _ _ Hs Hx) as Hrd.
  split; [by eapply insert_equal_count|]. split; [by eapply insert_equal_lower_count|]. split; [by eapply emplace_equal_count|].
  split; [by eapply insert_equal_at_count|by eapply emplace_hint_equal_count].
Qed.
Print Assumptions C75_insert_equal.

Definition cxT : tree nat :=
  Node Black 2 30 (Node Black 3 10 Leaf Leaf) (Node Black 4 50 (Node Red 5 40 Leaf Leaf) Leaf).
Definition cxX : list (addr * nat) := elems cxT.
Definition cw (orc : list event) : world (tcell nat) := World (set_heap_of 0 1 cxT) orc None 0 0.
Lemma cx_tree orc : tree_is exO cxX ∅ (cw orc).
Proof. apply tree_is_mset. apply mset_is_set. apply (good_is (wk never)). by vm_compute. Qed.
(** [settled] refuses too small a number: whether 40 is found depends on the
    answers to the questions 30<40, 50<40 and 40<40, and changing any one of
    them changes the result, so that no list of two questions settles it. *)
Definition flip_at (a b : nat) (x y : nat) : bool :=
  if decide (x = a /\ y = b) then negb (nat_lt x y) else nat_lt x y.
Lemma flip_needed (qs : list (nat * nat)) a b :
  (a, b) ∉ qs -> Forall (fun q => flip_at a b q.1 q.2 = nat_lt q.1 q.2) qs.
Proof.
  intros Hq. apply Forall_forall. intros [x y] Hin. simpl. unfold flip_at. destruct (decide _) as [[-> ->]|]; done.
Qed.
Example C75_example :
  tree_is exO cxX ∅ (cw []) /\ targ_is cxX ∅ (TAVal 40) 40 /\
  2 * Nat.log2 (length cxX + 1) = 4 /\
  ~ settled (fun c => t_find c exO (TAVal 40)) nat_lt (cw []) 2.
Proof.
  split; [apply cx_tree|]. split; [done|]. split; [done|]. intros (qs & Hl & H).
  assert (forall a b, t_find (flip_at a b) exO (TAVal 40) (cw []) <> t_find nat_lt exO (TAVal 40) (cw []) -> (a, b) ∈ qs) as Hin.
  { intros a b Hne. destruct (decide ((a, b) ∈ qs)) as [|Hq]; [done|]. destruct Hne. apply H. by apply flip_needed. }
  assert ((30, 40) ∈ qs /\ (50, 40) ∈ qs /\ (40, 40) ∈ qs) as (H1 & H2 & H3).
  { split_and!; apply Hin; intros Heq; apply (f_equal (fun r => match r with Done a _ => Some a | _ => None end)) in Heq; vm_compute in Heq; done. }
  assert (length [(30, 40); (50, 40); (40, 40)] <= length qs) as Hlen; [|simpl in Hlen; lia].
  apply submseteq_length. apply NoDup_submseteq.
  - apply NoDup_cons. split; [set_solver|]. apply NoDup_cons. split; [set_solver|]. apply NoDup_singleton.
  - set_solver.
Qed.

(** ** Good hints *)

(** [v] belongs between the first [n] elements and the others *)
Definition belongs {V} (comp : V -> V -> bool) (xs : list (addr * V)) (n : nat) (v : V) : Prop :=
  n <= length xs /\
  (forall j p, xs !! j = Some p -> j < n -> comp p.2 v = true) /\
  (forall j p, xs !! j = Some p -> n <= j -> comp v p.2 = true).

(** A hint next to the place of the value, or at an element equivalent to it,
    saves the descent: four comparisons are enough, however large the set. *)
Theorem C75_hint V (cf : cfg V) comp o xs hf w x v i :
  swo comp -> set_is comp o xs hf w -> targ_is xs hf x v -> w_err w = None ->
  (exists n, belongs comp xs n v /\ (i = n \/ S i = n)) \/ (exists p, xs !! i = Some p /\ equivalent comp p.2 v) ->
  settled (fun c => insert_unique_at cf c o (tpos (t_hdr o) xs i) x) comp w 4 /\
  settled (fun c => emplace_hint_unique cf c o (tpos (t_hdr o) xs i) x) comp w 4.
Proof.
  intros Hswo [t Hs]%set_is_sin Hx He Hi.
  assert (tree_is o xs hf w) as [t' Hs']%tree_is_sin.
  { apply tree_is_sin. exists t. destruct Hs as (Ht & HE & Hrb & _). split_and!; [done..|].
    clear. induction xs as [|p xs IH]; simpl; [done|]. by split. }
  pose proof (targ_rd _ _ _ _ _ _ _ _ Hs' Hx) as Hrd.
  assert (~ hint_bad comp xs i v) as Hbad.
  { assert (forall p q, comp p q = true -> comp q p = true -> False) as Hasym.
    { intros p q Hp Hq. destruct Hswo as (Hirr & Htr & _). pose proof (Htr _ _ _ Hp Hq) as Hc. rewrite Hirr in Hc. done. }
    intros Hb. destruct Hi as [(n & (Hn & Hlo & Hhi) & Hin)|(p & Hp & Heq1 & Heq2)].
    - destruct Hb as [(Hlen & p & Hp & Hc)|[(j & p & q & -> & Hq & Hp & Hc1 & Hc2)|(p & q & Hp & Hq & Hc1 & Hc2)]].
      + rewrite last_lookup in Hp. pose proof (lookup_lt_Some _ _ _ Hp) as Hlt.
        rewrite (Hlo _ _ Hp) in Hc; [done|]. lia.
      + destruct Hin as [<-|Hin].
        * rewrite (Hlo _ _ Hq) in Hc2; [done|lia].
        * eapply Hasym; [exact Hc1|]. eapply Hlo; [exact Hp|lia].
      + destruct Hin as [->|<-].
        * eapply Hasym; [exact Hc1|]. eapply Hhi; [exact Hp|lia].
        * rewrite (Hhi _ _ Hq) in Hc2; [done|lia].
    - destruct Hb as [(Hlen & _)|[(j & p' & q & -> & Hq & Hp' & Hc1 & Hc2)|(p' & q & Hp' & Hq & Hc1 & Hc2)]].
      + apply lookup_lt_Some in Hp. lia.
      + simplify_eq. congruence.
      + simplify_eq. congruence. }
  split; [eapply (insert_at_count cf comp o xs t' hf i x v w 0)|eapply (emplace_hint_count cf comp o xs t' hf i x v w 0)]; done.
Qed.
Print Assumptions C75_hint.

Example C75_hint_example :
  set_is nat_lt exO exX ∅ (tw1 [EvOk 50]) /\ belongs nat_lt exX 3 17 /\
  runs (insert_unique_at tcD nat_lt exO (tpos 1 exX 2) (TAVal 17)) (tw1 [EvOk 50]) (fun it _ => it = 50%positive) /\
  runs (insert_unique_at tcD nat_lt exO (tpos 1 exX 3) (TAVal 17)) (tw1 [EvOk 50]) (fun it _ => it = 50%positive).
Proof.
  split; [apply ex_set|]. split; [|split; compute_run].
  split; [by vm_compute; lia|]. split; intros j p Hj; do 6 (destruct j as [|j]; [injection Hj as <-; try done; lia|]); done.
Qed.

(** ** Ascending ranges *)

(** A range of ascending values, all behind the elements of the set (for
    instance into an empty set), costs four comparisons for each value. *)
Theorem C75_ascending_range V (cf : cfg V) comp o ks vs xs hf w :
  swo comp -> set_is comp o xs hf w -> Forall2 (targ_is [] hf) ks vs -> w_err w = None ->
  ascending comp (xs.*2 ++ vs) ->
  settled (fun c => insert_unique_range cf c o ks) comp w (4 * length vs).
Proof.
  intros Hswo Hs Hks. revert xs w Hs. induction Hks as [|k v ks vs Hk Hks IH]; intros xs w Hs He Ha; [apply settled_const|].
  cbn [insert_unique_range]. assert (targ_is xs hf k v) as Hk'.
  { destruct k as [|a]; [exact Hk|]. destruct Hk as [Hk|Hk]; [by apply elem_of_nil in Hk|by right]. }
  assert (t_end o = tpos (t_hdr o) xs (length xs)) as Hend by (by rewrite tpos_end by lia).
  assert (forall p, p ∈ xs -> comp p.2 v = true) as Hless.
  { intros p [j Hj]%elem_of_list_lookup. eapply (Ha j (length xs)).
    - by eapply lookup_lt_Some.
    - rewrite lookup_app_l by (rewrite fmap_length; by eapply lookup_lt_Some). by rewrite list_lookup_fmap, Hj.
    - rewrite lookup_app_r by (by rewrite fmap_length). by rewrite fmap_length, Nat.sub_diag. }
  eapply (settled_bind (fun c => insert_unique_at cf c o (t_end o) k)
    (fun c _ => let! e := has_err in if (e : bool) then ret tt else insert_unique_range cf c o ks) _ _ 4 (4 * length vs)); [| |simpl; lia].
  - rewrite Hend. eapply (C75_hint V cf comp o xs hf w k v); [done..|]. left. exists (length xs). split; [|by left].
    split; [lia|]. split; [intros j p Hj _; apply Hless; by eapply elem_of_list_lookup_2|].
    intros j p Hj Hlen. apply lookup_lt_Some in Hj. lia.
  - apply set_is_sin in Hs as [t Hs]. pose proof (targ_rd _ _ _ _ _ _ _ _ Hs Hk') as Hrd.
    assert (runs (insert_unique_at cf comp o (t_end o) k) w (fun _ w' => w_err w' <> None \/
      (w_err w' = None /\ exists a, set_is comp o (xs ++ [(a, v)]) hf w'))) as (a0 & w0 & Hr & Hpost).
    { rewrite Hend. eapply insert_at_spec; [done|exact Hs|exact Hrd|done| | |].
      - intros a pre post h' t' orc Hxs Hfr Hs' _. right. split; [done|]. exists a.
        assert (post = []) as ->.
        { destruct post as [|q post]; [done|]. exfalso. destruct Hs' as (_ & _ & _ & Hasc). apply asc_app in Hasc as (_ & Hasc & _).
          destruct Hasc as [Hasc _]. pose proof (Hasc q ltac:(by left)) as Hvq. simpl in Hvq.
          assert (comp q.2 v = true) as Hqv. { apply Hless. rewrite Hxs. apply elem_of_app. right. by left. }
          destruct Hswo as (Hirr & Htr & _). pose proof (Htr _ _ _ Hvq Hqv) as Hc. rewrite Hirr in Hc. done. }
        rewrite app_nil_r in Hxs. subst pre. apply set_is_sin. by exists t'.
      - intros i a u Hi Hc _. exfalso. pose proof (Hless (a, u) ltac:(by eapply elem_of_list_lookup_2)) as Hl. simpl in Hl. congruence.
      - intros w' e _ He' _ _ _. left. by rewrite He'. }
    intros a w' Hr'. rewrite Hr in Hr'. simplify_eq. destruct Hpost as [Herr|[Herr [a1 Hs1]]].
    + apply settled_runs. apply runs_has_err. destruct (w_err w') as [e|]; [apply settled_const|done].
    + apply settled_runs. apply runs_has_err. rewrite Herr. cbn. eapply IH; [exact Hs1|done|].
      rewrite fmap_app, <-(assoc_L (++)). done.
Qed.
Print Assumptions C75_ascending_range.

Example C75_range_example :
  set_is nat_lt exO exX ∅ (tw1 [EvOk 50; EvOk 51]) /\ Forall2 (targ_is [] ∅) [TAVal 41; TAVal 60] [41; 60] /\
  ascending nat_lt (exX.*2 ++ [41; 60]) /\
  runs (do! insert_unique_range tcD nat_lt exO [TAVal 41; TAVal 60] in t_walk exO) (tw1 [EvOk 50; EvOk 51]) (fun l _ =>
    l = [5; 10; 15; 20; 30; 40; 41; 60]).
Proof.
  split; [apply ex_set|]. split; [by repeat constructor|]. split; [|compute_run].
  apply asc_b_sound. by vm_compute.
Qed.
