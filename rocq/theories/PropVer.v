(** * The tree's check of itself: properties *)
From Verif Require AlgoProofs.
From Verif Require Import RbVer RbExtra PropSet PropMulti.
From Verif Require Import RbMultiHistSpec RbMultiHist.

(** ** C72 *)

(** __rb_verify accepts every tree that keeps equal values and every set ... *)
Theorem C72_accepts_multi V (cf : cfg V) comp o xs hf w :
  mset_is comp o xs hf w -> rb_verify cf comp o w = Done true w.
Proof. apply mset_verify. Qed.
Print Assumptions C72_accepts_multi.

Theorem C72_accepts_set V (cf : cfg V) comp o xs hf w :
  swo comp -> set_is comp o xs hf w -> rb_verify cf comp o w = Done true w.
Proof.
  intros Hswo (hv & (Ha & Ht) & Hw). apply (mset_verify cf comp o xs hf). exists hv. split; [|done]. split; [|done].
  intros i j x y Hij Hi Hj. apply AlgoProofs.swo_asym; [done|]. by eapply Ha.
Qed.
Print Assumptions C72_accepts_set.

(** ... in particular every set any program can build ... *)
Theorem C72_accepts_reachable V (cf : cfg V) comp k ops w :
  swo comp ->
  runs (set_program cf comp k ops) w (fun r w' => forall i o, r.1 !! i = Some o -> rb_verify cf comp o w' = Done true w').
Proof.
  intros Hswo. eapply runs_mono; [by apply C32_reachable|]. intros r w' Hr i o Hi.
  destruct (Hr i o Hi) as (xs & hf & Hs). by eapply C72_accepts_set.
Qed.
Print Assumptions C72_accepts_reachable.

(** ... and every tree that keeps equal values ... *)
Theorem C72_accepts_multi_reachable V (cf : cfg V) comp k ops w :
  swo comp ->
  runs (multi_program cf comp k ops) w (fun r w' => forall i o, r.1 !! i = Some o -> rb_verify cf comp o w' = Done true w').
Proof.
  intros Hswo. unfold multi_program. rbind.
  eapply (new_sets_spec cf (wk comp) k w (w_heap w) ∅ []); [done| |].
  { split; [by rewrite (left_id_L ∅ (∪))|apply map_disjoint_empty_l]. }
  intros hds hv' w1 Hl Ho Hh _. rewrite app_nil_r in Ho.
  assert (srow cf (wk comp) hds (replicate k []) hv') as Hr. { split; [by rewrite replicate_length|done]. }
  rbind. eapply runs_exec_mops; [done|exact Hr|exact Hh|]. intros rs xss' hv2 w' Hr' Hh' Hs. apply runs_ret. cbn [fst snd].
  intros i o Hi. rewrite list_lookup_fmap in Hi. destruct (hds !! i) as [h|] eqn:Eh; simplify_eq/=.
  destruct (srow_lookup _ _ _ _ _ _ _ Hr' Eh) as [xs Hxs]. destruct (srow_at _ _ _ _ _ _ _ _ Hr' Eh Hxs) as (R & _ & Ho1 & _).
  destruct (own_get _ _ _ _ _ _ _ _ Ho1 Hh') as (hr & t & _ & _ & Hsin).
  eapply (mset_verify cf comp _ xs (hr ∪ w_heap w)). apply mset_is_sin. by exists t.
Qed.
Print Assumptions C72_accepts_multi_reachable.

(** ... and of any linked nodes, whatever their colors, values, and whatever
    number, first node [p] and last node [q] the header records (as long as
    [p] is one of the nodes or the header itself), it accepts exactly these:
    where the number is zero and header points to itself both ways (the nodes
    are not looked at), or the number is not zero, [p] and [q] are the first
    and the last node, no red node has a red child, no child is on the wrong
    side of its parent, and equally many black nodes lead to all nodes
    without children and to the leftmost node. *)
Theorem C72_exact_header V (cf : cfg V) comp o p q n t hf w :
  linked_is o p q n t hf w -> p ∈ t_hdr o :: (elems t).*1 ->
  exists b, rb_verify cf comp o w = Done b w /\
    (b = true <->
     if decide (n = 0 \/ p = t_hdr o) then n = 0 /\ p = t_hdr o /\ q = t_hdr o
     else p = first_of (t_hdr o) (elems t) /\ q = last_of (t_hdr o) (elems t) /\ checked comp (lblack 0 t) 0 t).
Proof.
  intros Hl%linked_is_tin Hp.
  assert (Hr : runs (rb_verify cf comp o) w (fun b w' => w' = w /\ (b = true <-> accepts comp (t_hdr o) p q n t))).
  { eapply rb_verify_spec; [done|done|]. intros b Hb. by split. }
  destruct Hr as (b & w' & Hr & -> & Hb). by exists b.
Qed.
Print Assumptions C72_exact_header.

(** In particular, where the header records the right first and last node: of
    any linked nodes, whatever their colors, values and recorded number, it accepts exactly those where the recorded number is zero just
    when there are no nodes, no red node has a red child, no child is on the
    wrong side of its parent, and equally many black nodes lead to all nodes
    without children and to the leftmost node. *)
Theorem C72_exact V (cf : cfg V) comp o n t hf w :
  links_is o n t hf w ->
  exists b, rb_verify cf comp o w = Done b w /\
    (b = true <-> (n = 0 <-> t = Leaf) /\ checked comp (lblack 0 t) 0 t).
Proof.
  intros Hl. destruct (C72_exact_header V cf comp o _ _ n t hf w Hl (first_in comp o t)) as (b & Hb & Hv). exists b. split; [done|].
  rewrite Hv. by eapply accepts_right.
Qed.
Print Assumptions C72_exact.

(** a red node with a red child, a child on the wrong side, one black node more
    on one side, and nodes although none are recorded: all rejected *)
Definition verT (i : nat) : tree nat :=
  match i with
  | 0 => Node Black 2 20 (Node Red 3 10 (Node Red 4 5 Leaf Leaf) Leaf) (Node Red 6 30 Leaf Leaf)
  | 1 => Node Black 2 20 (Node Red 3 10 Leaf Leaf) (Node Red 6 15 Leaf Leaf)
  | 2 => Node Black 2 20 (Node Red 3 10 Leaf Leaf) (Node Black 6 30 Leaf Leaf)
  | _ => Node Black 2 20 (Node Black 3 10 Leaf Leaf) (Node Red 6 30 Leaf (Node Black 7 40 Leaf Leaf))
  end.
Definition verH (p q : addr) (n : nat) (t : tree nat) : gmap addr (tcell nat) :=
  let hdr := t_hdr exO in
  <[ hdr := TCell (V := nat) (Some Red) (Some (root t)) (Some (Some p)) (Some (Some q)) (THead n) ]> (tree_heap 0 hdr t).
Definition verX (p q : addr) (n : nat) (t : tree nat) : world (tcell nat) := World (verH p q n t) [] None 0 0.
Definition verW (n : nat) (t : tree nat) : world (tcell nat) := verX (first_of (t_hdr exO) (elems t)) (last_of (t_hdr exO) (elems t)) n t.
Lemma ver_linked p q n i : linked_is exO p q n (verT i) ∅ (verX p q n (verT i)).
Proof.
  assert (NoDup (t_hdr exO :: (elems (verT i)).*1)) as Hn.
  { destruct i as [|[|[|i]]]; apply (bool_decide_eq_true_1 (NoDup _)); by vm_compute. }
  exists (verH p q n (verT i)). split.
  - generalize dependent (verT i). intros t Hn. pose proof Hn as [Hh Hn']%NoDup_cons. unfold linked_own, verH.
    change (t_alloc exO) with 0. generalize dependent (t_hdr exO). intros hdr Hn Hh. cbn zeta. split_and!.
    + by rewrite lookup_insert.
    + eapply tat_ext; [|by apply (tree_heap_at nat_lt)]. intros x Hx. rewrite lookup_insert_ne by congruence. done.
    + done.
    + intros a. rewrite lookup_insert_is_Some, elem_of_cons, (tree_heap_dom nat_lt). destruct (decide (a = hdr)); naive_solver.
  - split; [simpl; by rewrite (right_id_L ∅ (∪))|apply map_disjoint_empty_r].
Qed.
Lemma ver_links n i : links_is exO n (verT i) ∅ (verW n (verT i)).
Proof. apply ver_linked. Qed.
(** a good tree with a wrong first node, a wrong last node, and right ones *)
Definition verG : tree nat := Node Black 2 20 (Node Red 3 10 Leaf Leaf) (Node Red 6 30 Leaf Leaf).
Example C72_example_header :
  runs (rb_verify tcD nat_lt exO) (verX 2 6 3 verG) (fun b _ => b = false) /\
  runs (rb_verify tcD nat_lt exO) (verX 3 2 3 verG) (fun b _ => b = false) /\
  runs (rb_verify tcD nat_lt exO) (verX (t_hdr exO) (t_hdr exO) 0 verG) (fun b _ => b = true) /\
  runs (rb_verify tcD nat_lt exO) (verX 3 6 3 verG) (fun b _ => b = true).
Proof. repeat split; compute_run. Qed.
Example C72_example :
  runs (rb_verify tcD nat_lt exO) (tw1 []) (fun b _ => b = true) /\
  runs (rb_verify mcD tens mxO) (mw1 []) (fun b _ => b = true) /\
  (forall i, links_is exO 4 (verT i) ∅ (verW 4 (verT i))) /\
  runs (rb_verify tcD nat_lt exO) (verW 4 (verT 0)) (fun b _ => b = false) /\
  runs (rb_verify tcD nat_lt exO) (verW 3 (verT 1)) (fun b _ => b = false) /\
  runs (rb_verify tcD nat_lt exO) (verW 3 (verT 2)) (fun b _ => b = false) /\
  runs (rb_verify tcD nat_lt exO) (verW 0 (verT 3)) (fun b _ => b = false).
Proof. repeat split; try (intros i; apply ver_links); compute_run. Qed.

(** what it does not see: the root's left black child balances the right
    child's black child, but the right child has no left one; and a wrong
    number of nodes *)
Example C72_example_blind :
  runs (rb_verify tcD nat_lt exO) (verW 7 (verT 3)) (fun b _ => b = true) /\
  length (elems (verT 3)) = 4 /\ ~ (exists n, bal n (verT 3)).
Proof.
  split; [compute_run|]. split; [done|]. intros (n & m & -> & (m1 & -> & Hm & _) & (Hl & (m2 & Hr & _))).
  simpl in *. lia.
Qed.
