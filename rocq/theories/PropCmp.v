(** * Property C67: comparing two trees

    Stated over the model (RbCmpModel.v) with the vocabulary of RbMultiSpec.v
    and [lex_less] of AlgoSpec.v.  The two trees may lie anywhere in the heap
    of [w]: [mset_is c1 o xs hf w] says that the heap consists of the tree [o]
    and of some [hf], [mset_is c2 o' ys hf' w] that the same heap consists of
    the tree [o'] and of some [hf'].  They may be the same tree, have different
    allocators and be ordered differently. *)
From Verif Require Import RbExtra RbCmp PropMulti PropAlgo.

(** the theorems below are about sets as well *)
Theorem C67_sets_too V (comp : V -> V -> bool) o xs hf w :
  swo comp -> set_is comp o xs hf w -> mset_is comp o xs hf w.
Proof.
  intros Hswo (hv & (Ha & Ht) & Hh). exists hv. split; [|done]. split; [|done].
  intros i j x y Hij Hi Hj. apply swo_asym; [done|]. by eapply Ha.
Qed.
Print Assumptions C67_sets_too.

(** [==]: as many elements, and equal ones in every position *)
Theorem C67_equality V (c1 c2 eqb : V -> V -> bool) o xs hf o' ys hf' w :
  mset_is c1 o xs hf w -> mset_is c2 o' ys hf' w ->
  exists b, t_eq eqb o o' w = Done b w /\ t_ne eqb o o' w = Done (negb b) w /\
    (b = true <-> Forall2 (fun x y => eqb x y = true) xs.*2 ys.*2).
Proof.
  intros [t Hs]%mset_is_sin [t' Hs']%mset_is_sin. pose proof (t_eq_spec _ _ eqb _ _ _ _ _ _ _ _ _ Hs Hs') as He.
  eexists. split; [exact He|]. split; [unfold t_ne, bind; by rewrite He|].
  destruct (decide (length xs = length ys)) as [Hl|Hl].
  - apply eqs_spec. by rewrite !fmap_length.
  - split; [done|]. intros Hf. apply Forall2_length in Hf. by rewrite !fmap_length in Hf.
Qed.
Print Assumptions C67_equality.

(** [<], [>], [<=] and [>=]: the lexicographic order of the elements *)
Theorem C67_order V (c1 c2 less : V -> V -> bool) o xs hf o' ys hf' w :
  mset_is c1 o xs hf w -> mset_is c2 o' ys hf' w ->
  exists lt gt, t_lt less o o' w = Done lt w /\ t_gt less o o' w = Done gt w /\
    t_le less o o' w = Done (negb gt) w /\ t_ge less o o' w = Done (negb lt) w /\
    (lt = true <-> lex_less less xs.*2 ys.*2) /\ (gt = true <-> lex_less less ys.*2 xs.*2).
Proof.
  intros [t Hs]%mset_is_sin [t' Hs']%mset_is_sin. pose proof (t_lt_spec _ _ less _ _ _ _ _ _ _ _ _ Hs Hs') as Hl.
  pose proof (t_lt_spec _ _ less _ _ _ _ _ _ _ _ _ Hs' Hs) as Hg.
  eexists _, _. split; [exact Hl|]. split; [exact Hg|]. split; [unfold t_le, bind; by rewrite Hg|].
  split; [unfold t_ge, bind; by rewrite Hl|]. split; apply lexb_lex.
Qed.
Print Assumptions C67_order.

(** if two values are equal exactly when neither is smaller, then exactly one
    of [<], [==] and [>] holds *)
Theorem C67_trichotomy V (c1 c2 eqb less : V -> V -> bool) o xs hf o' ys hf' w :
  swo less -> (forall x y, eqb x y = true <-> less x y = false /\ less y x = false) ->
  mset_is c1 o xs hf w -> mset_is c2 o' ys hf' w ->
  exists lt eq gt, t_lt less o o' w = Done lt w /\ t_eq eqb o o' w = Done eq w /\ t_gt less o o' w = Done gt w /\
    (lt, eq, gt) ∈ [(true, false, false); (false, true, false); (false, false, true)].
Proof.
  intros Hw Heq [t Hs]%mset_is_sin [t' Hs']%mset_is_sin.
  eexists _, _, _. split; [by eapply t_lt_spec|]. split; [by eapply t_eq_spec|]. split; [by eapply t_lt_spec|].
  assert (Has : forall x y, less x y = true -> less y x = false) by (intros x y; by apply swo_asym).
  rewrite <-(fmap_length snd xs), <-(fmap_length snd ys). generalize xs.*2 ys.*2. clear - Heq Has.
  intros l. induction l as [|x l IH]; intros [|y r]; simpl; [set_solver..|].
  destruct (less x y) eqn:E1, (less y x) eqn:E2.
  - apply Has in E1. congruence.
  - destruct (eqb x y) eqn:E; [apply Heq in E; intuition congruence|]. destruct (decide _); set_solver.
  - destruct (eqb x y) eqn:E; [apply Heq in E; intuition congruence|]. destruct (decide _); set_solver.
  - rewrite (proj2 (Heq x y)) by done. specialize (IH r).
    destruct (decide (length l = length r)), (decide (S (length l) = S (length r))); [done|lia|lia|done].
Qed.
Print Assumptions C67_trichotomy.

(** a successful copy compares equal to its source *)
Theorem C67_copy_equal V (cf : cfg V) comp (eqb : V -> V -> bool) o other xs ys hv2 hf w :
  (forall x, eqb x x = true) ->
  mset_is comp o xs (hv2 ∪ hf) w -> mset_own comp (t_alloc other) (t_hdr other) ys hv2 -> hv2 ##ₘ hf -> w_err w = None ->
  runs (do! t_copy cf o other in t_eq eqb o other) w (fun b w' => w_err w' = None -> b = true).
Proof.
  intros Hr Ho Ho2 Hd He. apply runs_bind.
  eapply runs_mono; [by eapply C66_copy|]. intros [] w1 Hw1.
  assert (exists zs, mset_is comp o zs (hv2 ∪ hf) w1 /\ (w_err w1 = None -> zs.*2 = ys.*2)) as (zs & Hz & Hzs).
  { destruct (w_err w1); [exists []; by split; [apply Hw1|]|]. destruct Hw1 as (zs & ? & ? & _). by exists zs. }
  assert (exists hf', mset_is comp other ys hf' w1) as [hf' Hy].
  { destruct Hz as (hv1 & _ & Hh & Hdh). apply map_disjoint_union_r in Hdh as [Hd1 Hd2]. exists (hv1 ∪ hf), hv2.
    split; [done|]. split; [|by apply map_disjoint_union_r].
    rewrite Hh, !(assoc_L (∪)). f_equal. by apply map_union_comm. }
  destruct (C67_equality _ _ _ eqb _ _ _ _ _ _ _ Hz Hy) as (b & Hb & _ & Hiff). exists b, w1. split; [done|].
  intros Hn. apply Hiff. rewrite (Hzs Hn). by apply Forall_Forall2_diag, Forall_true.
Qed.
Print Assumptions C67_copy_equal.

(** the trees 12, 25, 21, 28, 33, 40 and 17, 15, 50, ordered by their tens,
    compared as plain numbers *)
Example C67_example :
  mset_is tens mxO mxX mxH2 (mw2 []) /\ mset_is tens mxO2 mxX2 (set_heap_of 0 1 mxT1) (mw2 []) /\
  (forall x y, Nat.eqb x y = true <-> Nat.ltb x y = false /\ Nat.ltb y x = false) /\
  runs (let! a := t_lt Nat.ltb mxO mxO2 in let! b := t_eq Nat.eqb mxO mxO2 in let! c := t_gt Nat.ltb mxO mxO2 in
        let! d := t_le Nat.ltb mxO mxO2 in let! e := t_ge Nat.ltb mxO mxO2 in let! f := t_ne Nat.eqb mxO mxO2 in
        ret [a; b; c; d; e; f]) (mw2 []) (fun r _ => r = [true; false; false; true; false; true]) /\
  runs (let! a := t_lt Nat.ltb mxO mxO in let! b := t_eq Nat.eqb mxO mxO in let! c := t_gt Nat.ltb mxO mxO in
        ret [a; b; c]) (mw2 []) (fun r _ => r = [false; true; false]) /\
  runs (do! t_copy mcD mxO mxO2 in t_eq Nat.eqb mxO mxO2) (mw2 []) (fun b w' => w_err w' = None /\ b = true) /\
  runs (do! t_copy mcD mxO mxO2 in t_eq Nat.eqb mxO mxO2) (mw2 [EvOk 40; EvOk 1; EvOk 41; EvFail 9]) (fun b w' => w_err w' = Some (EElem 9) /\ b = false).
Proof.
  split; [apply mx_is2|]. split.
  { exists mxH2. split; [apply mx_own2|]. split; [|by apply map_disjoint_sym, mx_disj]. apply map_union_comm, mx_disj. }
  split; [intros x y; rewrite Nat.eqb_eq, !Nat.ltb_ge; lia|]. repeat split; compute_run.
Qed.
