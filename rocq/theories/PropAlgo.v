(** * Properties C49 and C50: the algorithms

    Vocabulary: AlgoSpec.v ([objs], [stored], [lex_less]) and Order.v ([swo]).
    [torn]: the value a failed assignment leaves behind, arbitrary. *)
From Verif Require Import AlgoProofs.

Definition acD : cfg nat := Cfg true 8 (2^62) 0 Direct 0.
Definition acN : cfg nat := Cfg true 8 (2^62) 0 Nothrow 0.
(** blocks 1 and 2 *)
Definition aw (l r : list nat) (orc : list event) : world (vblock nat) :=
  World {[ 1%positive := Block 0 8 8 (map_seq 0 l); 2%positive := Block 0 8 8 (map_seq 0 r) ]} orc None 0 0.
Lemma aw_objs1 l r orc : length l <= 8 -> objs (w_heap (aw l r orc)) 1 0 l.
Proof.
  intros Hl. split; [by eexists|]. intros k v Hk. unfold slot. simpl. rewrite lookup_insert. simpl.
  by rewrite lookup_map_seq_0.
Qed.
Lemma aw_objs2 l r orc : length r <= 8 -> objs (w_heap (aw l r orc)) 2 0 r.
Proof.
  intros Hl. split; [by eexists|]. intros k v Hk. unfold slot. simpl.
  rewrite lookup_insert_ne, lookup_singleton by done. simpl. by rewrite lookup_map_seq_0.
Qed.

(** ** C49 *)

Theorem C49_copy V (cf : cfg V) torn bs i vs bd j ds w :
  objs (w_heap w) bs i vs -> objs (w_heap w) bd j ds -> length ds = length vs ->
  (* the destination does not begin inside the source range *)
  (bs <> bd \/ j <= i \/ i + length vs <= j) -> w_err w = None ->
  runs (nestl_copy cf torn (Ptr bs i) (Ptr bs (i + length vs)) (Ptr bd j)) w (fun d w' =>
    match w_err w' with
    | None => d = Ptr bd (j + length vs) /\ stored (w_heap w) (w_heap w') bd j vs
    | Some e => exists k x code, k < length vs /\ d = Ptr bd (j + k) /\ e = EElem code /\ c_kind cf <> Nothrow /\
        stored (w_heap w) (w_heap w') bd j (take k vs ++ [x])
    end).
Proof.
  intros Hs Hd Hl Ho He. unfold nestl_copy.
  assert (Hr : runs (copy_if_loop cf torn (fun _ => true) (S (poff (Ptr bs (i + length vs)))) (Ptr bs i) (Ptr bs (i + length vs)) (Ptr bd j)) w (fun d w' =>
    match w_err w' with
    | None => d = Ptr bd (j + length vs) /\ stored (w_heap w) (w_heap w') bd j vs
    | Some e => exists k x code, k < length vs /\ d = Ptr bd (j + k) /\ e = EElem code /\ c_kind cf <> Nothrow /\
        stored (w_heap w) (w_heap w') bd j (take k vs ++ [x])
    end)).
  { pose proof (runs_copy_if_loop cf torn (fun _ => true) (S (poff (Ptr bs (i + length vs)))) w bs i [] vs bd j (w_heap w)) as Hc.
    simpl in Hc. rewrite filter_all_true, !Nat.add_0_r in Hc. apply Hc; clear Hc; try done.
    - lia.
    - destruct Hd as [(blk & ? & ?) _]. exists blk. split; [done|]. lia.
    - intros k Hk. destruct (lookup_lt_is_Some_2 ds k) as [v Hv]; [lia|]. exists v. by apply Hd.
    - apply stored_refl.
    - intros w' Hst He'. by rewrite He'.
    - intros w' k x code Hk Hn He' Hst. rewrite He'. by exists k, x, code. }
  destruct Hr as (d & w' & Hr & HQ). exists d, w'. split; [|done]. by rewrite copy_loop_if.
Qed.
Print Assumptions C49_copy.

Theorem C49_copy_if V (cf : cfg V) torn pred bs i vs bd j ds w :
  let sel := List.filter pred vs in
  objs (w_heap w) bs i vs -> objs (w_heap w) bd j ds -> length ds = length sel ->
  (bs <> bd \/ j <= i \/ i + length vs <= j) -> w_err w = None ->
  runs (nestl_copy_if cf torn pred (Ptr bs i) (Ptr bs (i + length vs)) (Ptr bd j)) w (fun d w' =>
    match w_err w' with
    | None => d = Ptr bd (j + length sel) /\ stored (w_heap w) (w_heap w') bd j sel
    | Some e => exists k x code, k < length sel /\ d = Ptr bd (j + k) /\ e = EElem code /\ c_kind cf <> Nothrow /\
        stored (w_heap w) (w_heap w') bd j (take k sel ++ [x])
    end).
Proof.
  intros sel Hs Hd Hl Ho He. unfold nestl_copy_if.
  pose proof (runs_copy_if_loop cf torn pred (S (poff (Ptr bs (i + length vs)))) w bs i [] vs bd j (w_heap w)) as Hc.
  simpl in Hc. rewrite !Nat.add_0_r in Hc. apply Hc; clear Hc; try done.
  - lia.
  - destruct Hd as [(blk & ? & ?) _]. exists blk. split; [done|]. fold sel. lia.
  - intros k Hk. destruct (lookup_lt_is_Some_2 ds k) as [v Hv]; [fold sel in Hk; lia|]. exists v. by apply Hd.
  - apply stored_refl.
  - intros w' Hst He'. by rewrite He'.
  - intros w' k x code Hk Hn He' Hst. rewrite He'. by exists k, x, code.
Qed.
Print Assumptions C49_copy_if.

(** into another array; in place, selecting; the second assignment fails *)
Example C49_example :
  objs (w_heap (aw [1; 2; 3] [7; 8; 9; 10] [])) 1 0 [1; 2; 3] /\
  objs (w_heap (aw [1; 2; 3] [7; 8; 9; 10] [])) 2 0 [7; 8; 9; 10] /\
  runs (nestl_copy acD (fun _ o _ => o + 100) (Ptr 1 0) (Ptr 1 3) (Ptr 2 1)) (aw [1; 2; 3] [7; 8; 9; 10] []) (fun d w' =>
    d = Ptr 2 4 /\ w_heap w' = w_heap (aw [1; 2; 3] [7; 1; 2; 3] [])) /\
  runs (nestl_copy acD (fun _ o _ => o + 100) (Ptr 1 0) (Ptr 1 3) (Ptr 2 1)) (aw [1; 2; 3] [7; 8; 9; 10] [EvOk 1; EvFail 4]) (fun d w' =>
    d = Ptr 2 2 /\ w_err w' = Some (EElem 4) /\ w_heap w' = w_heap (aw [1; 2; 3] [7; 1; 109; 10] [])) /\
  runs (nestl_copy_if acD (fun _ o _ => o) Nat.odd (Ptr 1 1) (Ptr 1 6) (Ptr 1 1)) (aw [0; 1; 2; 3; 4; 5] [] []) (fun d w' =>
    d = Ptr 1 4 /\ w_heap w' = w_heap (aw [0; 1; 3; 5; 4; 5] [] [])).
Proof.
  split; [by apply aw_objs1; simpl; lia|]. split; [by apply aw_objs2; simpl; lia|]. split_and!; compute_run.
Qed.

(** ** C50 *)

Theorem C50_equal V (p : V -> V -> bool) b1 i l b2 j r w :
  objs (w_heap w) b1 i l -> objs (w_heap w) b2 j r -> length r = length l ->
  runs (nestl_equal p (Ptr b1 i) (Ptr b1 (i + length l)) (Ptr b2 j)) w (fun b w' =>
    w' = w /\ (b = true <-> Forall2 (fun x y => p x y = true) l r)).
Proof.
  intros H1 H2 Hl. unfold nestl_equal. eapply (runs_equal_loop p _ w b1 i l b2 j r); [simpl; lia|done|done|lia|].
  split; [done|]. revert r H2 Hl. clear. intros r _. revert r.
  induction l as [|x l IH]; intros [|y r] Hl; simpl in Hl; [|lia|lia|]; simpl.
  - split; [intros _; constructor|done].
  - rewrite andb_true_iff, IH by lia. by rewrite Forall2_cons.
Qed.
Print Assumptions C50_equal.

(** the result of the loop is the lexicographic order, whatever the comparator *)
Lemma lexb_lex V (comp : V -> V -> bool) l r : lexb comp l r = true <-> lex_less comp l r.
Proof.
  split.
  - revert r. induction l as [|x l IH]; intros [|y r] Hb; simpl in Hb; [done| |done|].
    + exists 0. split; [lia|]. right. by split.
    + destruct (comp x y) eqn:E1.
      { exists 0. split; [lia|]. left. by exists x, y. }
      destruct (comp y x) eqn:E2; [done|]. destruct (IH _ Hb) as (k & Hk & Hd). exists (S k). split; [|done].
      intros [|i] Hi; [|apply Hk; lia]. exists x, y. unfold same_rank. by rewrite E1, E2.
  - intros (k & Hk & Hd). revert l r Hk Hd. induction k as [|k IH]; intros l r Hk Hd.
    + destruct Hd as [(x & y & Hx & Hy & Hc)|[Hn [y Hy]]].
      * destruct l; [done|]. destruct r; [done|]. simplify_eq/=. by rewrite Hc.
      * destruct l; [|done]. by destruct r.
    + destruct (Hk 0 ltac:(lia)) as (x & y & Hx & Hy & Hs). destruct l as [|x' l]; [done|]. destruct r as [|y' r]; [done|].
      simplify_eq/=. unfold same_rank in Hs. apply andb_true_iff in Hs as [Hs1 Hs2].
      rewrite negb_true_iff in Hs1, Hs2. rewrite Hs1, Hs2. apply IH; [|done].
      intros i Hi. apply (Hk (S i)). lia.
Qed.

Theorem C50_lexicographical_compare V (comp : V -> V -> bool) b1 i l b2 j r w :
  objs (w_heap w) b1 i l -> objs (w_heap w) b2 j r ->
  runs (nestl_lexicographical_compare comp (Ptr b1 i) (Ptr b1 (i + length l)) (Ptr b2 j) (Ptr b2 (j + length r))) w (fun b w' =>
    w' = w /\ (b = true <-> lex_less comp l r)).
Proof.
  intros H1 H2. unfold nestl_lexicographical_compare. eapply (runs_lex_loop comp); [simpl; lia|done|done|].
  split; [done|]. apply lexb_lex.
Qed.
Print Assumptions C50_lexicographical_compare.

(** the order decided is again a strict weak order: irreflexive, transitive,
    and such that being incomparable is transitive *)
Theorem C50_lexicographic_order V (comp : V -> V -> bool) : swo comp ->
  (forall l, ~ lex_less comp l l) /\
  (forall l m r, lex_less comp l m -> lex_less comp m r -> lex_less comp l r) /\
  (forall l m r, lex_less comp l m -> lex_less comp l r \/ lex_less comp r m).
Proof.
  intros Hw. assert (Has : forall x y, comp x y = true -> comp y x = false) by (intros x y; by apply swo_asym).
  destruct (lexb_swo comp Hw) as (Hi & Ht & Hc). split_and!.
  - intros l Hl. apply lexb_less in Hl; [|done]. by rewrite Hi in Hl.
  - intros l m r Hl Hm. apply lexb_less in Hl, Hm; [|done..]. apply lexb_less; [done|]. by eapply Ht.
  - intros l m r Hl. apply lexb_less in Hl; [|done]. destruct (Hc l m r Hl); [left|right]; by apply lexb_less.
Qed.
Print Assumptions C50_lexicographic_order.

Example C50_example :
  swo Nat.ltb /\
  runs (nestl_equal Nat.eqb (Ptr 1 0) (Ptr 1 2) (Ptr 2 0)) (aw [1; 2; 3] [1; 2; 4] []) (fun b _ => b = true) /\
  runs (nestl_equal Nat.eqb (Ptr 1 0) (Ptr 1 3) (Ptr 2 0)) (aw [1; 2; 3] [1; 2; 4] []) (fun b _ => b = false) /\
  runs (nestl_lexicographical_compare Nat.ltb (Ptr 1 0) (Ptr 1 3) (Ptr 2 0) (Ptr 2 3)) (aw [1; 2; 3] [1; 2; 4] []) (fun b _ => b = true) /\
  runs (nestl_lexicographical_compare Nat.ltb (Ptr 2 0) (Ptr 2 3) (Ptr 1 0) (Ptr 1 3)) (aw [1; 2; 3] [1; 2; 4] []) (fun b _ => b = false) /\
  runs (nestl_lexicographical_compare Nat.ltb (Ptr 1 0) (Ptr 1 2) (Ptr 2 0) (Ptr 2 3)) (aw [1; 2; 3] [1; 2; 4] []) (fun b _ => b = true) /\
  runs (nestl_lexicographical_compare Nat.ltb (Ptr 1 0) (Ptr 1 2) (Ptr 2 0) (Ptr 2 2)) (aw [1; 2; 3] [1; 2; 4] []) (fun b _ => b = false).
Proof.
  split; [split_and!; intros; rewrite ?Nat.ltb_lt, ?Nat.ltb_ge in *; lia|]. split_and!; compute_run.
Qed.
