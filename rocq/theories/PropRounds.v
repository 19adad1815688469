(** * Property C77: the loops of the tree code take logarithmically many rounds

    [logarithmic] (RoundsSpec.v) gives every loop up or down a tree
    [2 * log2 c + 1] rounds, where [c] is the number of cells in the heap.  The
    theorems say that no loop ever needs more: every history runs to its end,
    and to the same end as under any wider limit. *)
From Verif Require Import RoundsSpec RbUpto RbExtra RbMultiHist PropMulti PropSet PropMultiHist.

Lemma logarithmic_least (L : limit) : tighter logarithmic L.
Proof. intros n. pose proof (@rounds_ok L n). simpl. lia. Qed.

Lemma up_walk_all V L1 L2 os : tighter L1 L2 -> upto (@walk_all V L1 os) (@walk_all V L2 os).
Proof. intros HL. induction os as [|o os IH]; cbn [walk_all]; upr IH. Qed.
#[local] Hint Resolve up_walk_all : updb.
Lemma up_set_life V L1 L2 (cf : cfg V) comp k ops :
  tighter L1 L2 -> upto (@set_life V L1 cf comp k ops) (@set_life V L2 cf comp k ops).
Proof. intros HL. unfold set_life. up. Qed.
Lemma up_multi_life V L1 L2 (cf : cfg V) comp k ops :
  tighter L1 L2 -> upto (@multi_life V L1 cf comp k ops) (@multi_life V L2 cf comp k ops).
Proof. intros HL. unfold multi_life. up. Qed.

Section life.
  Context {V : Type} {L : limit} (cf : cfg V) (comp : V -> V -> bool).
  Notation W := (world (tcell V)).

  Lemma walk_all_spec os ls w (Q : _ -> W -> Prop) :
    length os = length ls ->
    (forall i o l, os !! i = Some o -> ls !! i = Some l -> t_walk o w = Done l w /\ t_rwalk o w = Done (reverse l) w) ->
    Q ((fun l => (l, reverse l)) <$> ls) w -> runs (walk_all os) w Q.
  Proof.
    revert ls Q. induction os as [|o os IH]; intros [|l ls] Q Hl Hw HQ; try done; cbn [walk_all].
    - by apply runs_ret.
    - destruct (Hw 0 o l) as [H1 H2]; [done..|].
      rbind. eapply runs_eq; [exact H1|]. rbind. eapply runs_eq; [exact H2|]. rbind. apply (IH ls); [by injection Hl| |by apply runs_ret].
      intros i o' l' Ho Hl'. apply (Hw (S i)); done.
  Qed.
  Lemma set_life_spec k ops w :
    swo comp ->
    runs (set_life cf comp k ops) w (fun r w' => w_heap w' = w_heap w /\
      exists ls, sops_spec comp ops (replicate k []) r.1 ls /\ r.2 = (fun l => (l, reverse l)) <$> ls).
  Proof.
    intros Hswo. unfold set_life, set_program. rbind. rbind.
    eapply (new_sets_spec cf comp k w (w_heap w) ∅ []); [done|apply heap_whole|].
    intros hds hv' w1 Hl Ho Hh _. rewrite app_nil_r in Ho.
    assert (srow cf comp hds (replicate k []) hv') as Hr. { split; [by rewrite replicate_length|done]. }
    rbind. eapply runs_exec_sops; [done|exact Hr|exact Hh|]. intros rs xss' hv2 w' Hr' Hh' Hs. apply runs_ret. cbn [fst snd].
    rbind. apply (walk_all_spec _ (vals xss')).
    { unfold vals. rewrite !fmap_length. apply Hr'. }
    { intros i o l Hi Hls. rewrite list_lookup_fmap in Hi. destruct (hds !! i) as [h|] eqn:Eh; simplify_eq/=.
      rewrite vals_lookup in Hls. destruct (xss' !! i) as [xs|] eqn:Ex; simplify_eq/=.
      destruct (srow_shows cf comp _ _ _ _ _ _ _ _ Hswo Hr' Hh' Eh Ex) as (_ & _ & _ & ? & ? & _). done. }
    rbind. eapply destroy_sets_spec; [exact Hr'|exact Hh'|]. intros w2 Hw2. apply runs_ret. split; [done|]. cbn [fst snd].
    exists (vals xss'). split; [|done]. unfold vals in Hs at 1. by rewrite fmap_replicate in Hs.
  Qed.
  Lemma multi_life_spec k ops w :
    swo comp ->
    runs (multi_life cf comp k ops) w (fun r w' => w_heap w' = w_heap w /\
      exists ls, mops_spec comp ops (replicate k []) r.1 ls /\ r.2 = (fun l => (l, reverse l)) <$> ls).
  Proof.
    intros Hswo. unfold multi_life, multi_program. rbind. rbind.
    eapply (new_sets_spec cf (wk comp) k w (w_heap w) ∅ []); [done|apply heap_whole|].
    intros hds hv' w1 Hl Ho Hh _. rewrite app_nil_r in Ho.
    assert (srow cf (wk comp) hds (replicate k []) hv') as Hr. { split; [by rewrite replicate_length|done]. }
    rbind. eapply runs_exec_mops; [done|exact Hr|exact Hh|]. intros rs xss' hv2 w' Hr' Hh' Hs. apply runs_ret. cbn [fst snd].
    rbind. apply (walk_all_spec _ (vals xss')).
    { unfold vals. rewrite !fmap_length. apply Hr'. }
    { intros i o l Hi Hls. rewrite list_lookup_fmap in Hi. destruct (hds !! i) as [h|] eqn:Eh; simplify_eq/=.
      rewrite vals_lookup in Hls. destruct (xss' !! i) as [xs|] eqn:Ex; simplify_eq/=.
      destruct (mrow_shows cf comp _ _ _ _ _ _ _ _ Hswo Hr' Hh' Eh Ex) as (_ & _ & _ & ? & ? & _). done. }
    rbind. eapply destroy_sets_spec; [exact Hr'|exact Hh'|]. intros w2 Hw2. apply runs_ret. split; [done|]. cbn [fst snd].
    exists (vals xss'). split; [|done]. unfold vals in Hs at 1. by rewrite fmap_replicate in Hs.
  Qed.
End life.

(** Any history on [k] sets, from any heap and against any allocator, with
    loops cut off after [2 * log2 c + 1] rounds: it is not cut off, its answers
    are those of the plain lists, and a wider limit makes no difference. *)
Theorem C77_set_rounds V (cf : cfg V) comp k ops w :
  swo comp ->
  exists r w',
    @set_life V logarithmic cf comp k ops w = Done r w' /\ w_heap w' = w_heap w /\
    (exists ls, sops_spec comp ops (replicate k []) r.1 ls /\ r.2 = (fun l => (l, reverse l)) <$> ls) /\
    forall L : limit, @set_life V L cf comp k ops w = Done r w'.
Proof.
  intros Hswo. destruct (@set_life_spec V logarithmic cf comp k ops w Hswo) as (r & w' & Hr & Hh & Hs).
  exists r, w'. split_and!; [done..|]. intros L. eapply upto_done; [|exact Hr]. apply up_set_life, logarithmic_least.
Qed.
Print Assumptions C77_set_rounds.

(** The same for trees that keep equal values. *)
Theorem C77_multi_rounds V (cf : cfg V) comp k ops w :
  swo comp ->
  exists r w',
    @multi_life V logarithmic cf comp k ops w = Done r w' /\ w_heap w' = w_heap w /\
    (exists ls, mops_spec comp ops (replicate k []) r.1 ls /\ r.2 = (fun l => (l, reverse l)) <$> ls) /\
    forall L : limit, @multi_life V L cf comp k ops w = Done r w'.
Proof.
  intros Hswo. destruct (@multi_life_spec V logarithmic cf comp k ops w Hswo) as (r & w' & Hr & Hh & Hs).
  exists r, w'. split_and!; [done..|]. intros L. eapply upto_done; [|exact Hr]. apply up_multi_life, logarithmic_least.
Qed.
Print Assumptions C77_multi_rounds.

(** Twelve values in ascending order, some removed again, a copy; the heap then
    has 2 + 9 + 8 cells, so that no loop may go round more than nine times.  A
    loop that needs one round more than it is given does stop the program. *)
Definition rounds_ops : list (sop nat) :=
  ((fun v => SoInsert 0 (HVal v)) <$> seq 1 12) ++
  [SoEraseKey 0 (HVal 4); SoErase 0 0; SoEraseKey 0 (HVal 12); SoInsertHint 0 3 (HVal 5); SoCopy 1 0; SoErase 1 8; SoLower 0 (HVal 6)].
Example C77_example :
  swo nat_lt /\
  runs (@set_life nat logarithmic tcD nat_lt 2 rounds_ops) (tw0 []) (fun r _ =>
    r.2 = [([2; 3; 5; 6; 7; 8; 9; 10; 11], [11; 10; 9; 8; 7; 6; 5; 3; 2]);
           ([2; 3; 5; 6; 7; 8; 9; 10], [10; 9; 8; 7; 6; 5; 3; 2])]) /\
  minimum_loop 2 2%positive (tw1 []) = Fault FFuel /\ minimum_loop 3 2%positive (tw1 []) = Done 4%positive (tw1 []).
Proof. split; [apply nat_lt_swo|]. split; [compute_run|]. by vm_compute. Qed.

(** Insertion in descending order, equal values among them. *)
Example C77_example_multi :
  runs (@multi_life nat logarithmic mcD tens 1
          (((fun v => MoInsert 0 (HVal (40 - v))) <$> seq 0 10) ++ [MoEraseKey 0 (HVal 40); MoRange 0 (HVal 35)])) (mhw [])
    (fun r _ => r.2 = [([39; 38; 37; 36; 35; 34; 33; 32; 31], [31; 32; 33; 34; 35; 36; 37; 38; 39])]).
Proof. compute_run. Qed.
