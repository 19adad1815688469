(** * Property C80 for sets and for trees that keep equal values *)
From Verif Require Import RbExtra RbMultiHist RoundsSpec PropSet PropMulti PropMultiHist PropRounds ConcMulti PropConc.

(** The program of a thread is [set_life] or [multi_life] (RoundsSpec.v):
    create [k] sets, make the calls [ops] on them, visit all elements forwards
    and backwards, destroy the sets. *)

Lemma st_exec_sops V L cf comp ops os : steps false (@exec_sops V L cf comp ops os).
Proof. induction ops as [|op ops IH]; intros; cbn [exec_sops]; stpr IH. Defined.
Lemma st_new_sets V cf n : steps false (@new_sets V cf n).
Proof. induction n as [|n IH]; cbn [new_sets]; stpr IH. Defined.
Lemma st_destroy_sets V L os : steps false (@destroy_sets V L os).
Proof. induction os as [|o os IH]; cbn [destroy_sets]; stpr IH. Defined.
Lemma st_exec_mops V L cf comp ops os : steps false (@exec_mops V L cf comp ops os).
Proof. induction ops as [|op ops IH]; intros; cbn [exec_mops]; stpr IH. Defined.
Lemma st_walk_all b V L os : steps b (@walk_all V L os).
Proof. induction os as [|o os IH]; cbn [walk_all]; stpr IH. Defined.
#[local] Hint Resolve st_exec_sops st_new_sets st_destroy_sets st_exec_mops st_walk_all : stdb.
Lemma st_set_life V L cf comp k ops : steps false (@set_life V L cf comp k ops).
Proof. unfold set_life, set_program. stp. Defined.
Lemma st_multi_life V L cf comp k ops : steps false (@multi_life V L cf comp k ops).
Proof. unfold multi_life, multi_program. stp. Defined.

Theorem C80_set_steps V (cf : cfg V) comp k ops : can_step (set_life cf comp k ops).
Proof. destruct (st_set_life V _ cf comp k ops) as [p [Hp _]]. by exists p. Qed.
Print Assumptions C80_set_steps.
Theorem C80_multi_steps V (cf : cfg V) comp k ops : can_step (multi_life cf comp k ops).
Proof. destruct (st_multi_life V _ cf comp k ops) as [p [Hp _]]. by exists p. Qed.
Print Assumptions C80_multi_steps.

(** ** Different sets in different threads

    Any number of threads, each with sets of its own, each with any history
    of calls, with any failures, scheduled in any way: no undefined behaviour;
    a thread that has finished has got the answers and has visited the
    elements that the specification of a history gives; when all have finished
    the memory is as before. *)
Theorem C80_sets V (cf : cfg V) comp H (ts : list (nat * list (sop V) * list event)) ps sched :
  swo comp ->
  Forall2 (fun p t => presents p (set_life cf comp t.1.1 t.1.2)) ps ts ->
  exists s', crun sched (start H (zip_with (fun p t => Job p ∅ t.2) ps ts)) = inl s' /\ H ⊆ cs_mem s' /\
    (forall i t th r, ts !! i = Some t -> cs_thr s' !! i = Some th -> finished th r ->
       exists ls, sops_spec comp t.1.2 (replicate t.1.1 []) r.1 ls /\ r.2 = (fun l => (l, reverse l)) <$> ls) /\
    ((forall th, th ∈ cs_thr s' -> exists r, finished th r) -> cs_mem s' = H).
Proof.
  intros Hswo Hps.
  apply (separate_threads (fun t => set_life cf comp t.1 t.2)
    (fun t r => exists ls, sops_spec comp t.2 (replicate t.1 []) r.1 ls /\ r.2 = (fun l => (l, reverse l)) <$> ls)); [|done].
  intros t w Ht Hw. rewrite <-Hw. eapply runs_mono; [by apply set_life_spec|]. by intros r w' [? ?].
Qed.
Print Assumptions C80_sets.

(** The same for trees that keep equal values. *)
Theorem C80_multisets V (cf : cfg V) comp H (ts : list (nat * list (mop V) * list event)) ps sched :
  swo comp ->
  Forall2 (fun p t => presents p (multi_life cf comp t.1.1 t.1.2)) ps ts ->
  exists s', crun sched (start H (zip_with (fun p t => Job p ∅ t.2) ps ts)) = inl s' /\ H ⊆ cs_mem s' /\
    (forall i t th r, ts !! i = Some t -> cs_thr s' !! i = Some th -> finished th r ->
       exists ls, mops_spec comp t.1.2 (replicate t.1.1 []) r.1 ls /\ r.2 = (fun l => (l, reverse l)) <$> ls) /\
    ((forall th, th ∈ cs_thr s' -> exists r, finished th r) -> cs_mem s' = H).
Proof.
  intros Hswo Hps.
  apply (separate_threads (fun t => multi_life cf comp t.1 t.2)
    (fun t r => exists ls, mops_spec comp t.2 (replicate t.1 []) r.1 ls /\ r.2 = (fun l => (l, reverse l)) <$> ls)); [|done].
  intros t w Ht Hw. rewrite <-Hw. eapply runs_mono; [by apply multi_life_spec|]. by intros r w' [? ?].
Qed.
Print Assumptions C80_multisets.

(** ** Several threads read one set *)

(** Calls that do not change the set. *)
Inductive sread (V : Type) := SrSize | SrEmpty | SrAll | SrAllBackwards | SrFind (v : V).
Arguments SrSize {V}.
Arguments SrEmpty {V}.
Arguments SrAll {V}.
Arguments SrAllBackwards {V}.
Arguments SrFind {V}.
Inductive srans (V : Type) := SaNum (n : nat) | SaBool (b : bool) | SaElem (x : option V) | SaList (l : list V).
Arguments SaNum {V}.
Arguments SaBool {V}.
Arguments SaElem {V}.
Arguments SaList {V}.
Definition exec_sread {V} (comp : V -> V -> bool) (o : tset) (c : sread V) : M (tcell V) (srans V) :=
  match c with
  | SrSize => let! n := t_size o in ret (SaNum n)
  | SrEmpty => let! b := t_empty o in ret (SaBool b)
  | SrAll => let! l := t_walk o in ret (SaList l)
  | SrAllBackwards => let! l := t_rwalk o in ret (SaList l)
  | SrFind v => let! it := t_find comp o (TAVal v) in let! x := read_iter o it in ret (SaElem x)
  end.
(** Their answers for the elements [l]: find() gives an equivalent element of
    [l], or end() if there is none. *)
Definition sread_spec {V} (comp : V -> V -> bool) (l : list V) (c : sread V) (a : srans V) : Prop :=
  match c with
  | SrSize => a = SaNum (length l)
  | SrEmpty => a = SaBool (bool_decide (l = []))
  | SrAll => a = SaList l
  | SrAllBackwards => a = SaList (reverse l)
  | SrFind v => exists x, a = SaElem x /\
      match x with
      | Some x => x ∈ l /\ comp x v = false /\ comp v x = false
      | None => forall y, y ∈ l -> ~ (comp y v = false /\ comp v y = false)
      end
  end.
Lemma st_exec_sread b {V} (comp : V -> V -> bool) o c : steps b (exec_sread comp o c).
Proof. unfold exec_sread. stp. Defined.

Theorem C80_set_const V (comp : V -> V -> bool) o c : reading (exec_sread comp o c).
Proof. destruct (st_exec_sread true comp o c) as [p [Hp Hr]]. exists p. auto. Qed.
Print Assumptions C80_set_const.
(** lower_bound, upper_bound, equal_range and count *)
Theorem C80_set_bounds_const V (comp : V -> V -> bool) o v :
  reading (lower_bound comp o (TAVal v)) /\ reading (upper_bound comp o (TAVal v)) /\
  reading (equal_range comp o (TAVal v)) /\ reading (t_count comp o (TAVal v)).
Proof.
  split_and!.
  - destruct (st_lower_bound true V _ comp o (TAVal v)) as [p [Hp Hr]]. exists p. auto.
  - destruct (st_upper_bound true V _ comp o (TAVal v)) as [p [Hp Hr]]. exists p. auto.
  - destruct (st_equal_range true V _ comp o (TAVal v)) as [p [Hp Hr]]. exists p. auto.
  - destruct (st_t_count true V _ comp o (TAVal v)) as [p [Hp Hr]]. exists p. auto.
Qed.
Print Assumptions C80_set_bounds_const.

(** Any number of threads, each making one of these calls on the same set. *)
Theorem C80_set_readers V comp H o (l : list V) (cs : list (sread V)) (ps : list (prog (tcell V) (srans V))) sched :
  set_shows comp (World H [] None 0 0) o l ->
  Forall2 (fun p c => presents p (exec_sread comp o c) /\ only_reads p) ps cs ->
  exists s', crun sched (start H ((fun p => Job p H []) <$> ps)) = inl s' /\ cs_mem s' = H /\
    forall i c th a, cs !! i = Some c -> cs_thr s' !! i = Some th -> finished th a -> sread_spec comp l c a.
Proof.
  intros (_ & H1 & H2 & H3 & H4 & H5) Hps.
  assert (forall c, exists a, exec_sread comp o c (World H [] None 0 0) = Done a (World H [] None 0 0) /\ sread_spec comp l c a) as Hc.
  { intros c. destruct c; simpl; unfold bind, ret.
    - rewrite H1. eauto.
    - rewrite H2. eauto.
    - rewrite H3. eauto.
    - rewrite H4. eauto.
    - destruct (H5 v) as (r & Hr & Hf). unfold bind in Hr. destruct (t_find _ _ _ _) as [it w1|]; [|done]. rewrite Hr.
      eexists. split; [done|]. exists r. split; [done|]. destruct r; exact Hf. }
  assert (exists as_, Forall2 (fun c a => exec_sread comp o c (World H [] None 0 0) = Done a (World H [] None 0 0) /\ sread_spec comp l c a) cs as_) as [as_ Has].
  { clear -Hc. induction cs as [|c cs [as_ IH]]; [by exists []|]. destruct (Hc c) as [a Ha]. exists (a :: as_). by constructor. }
  destruct (C80_readers _ _ H ps (exec_sread comp o <$> cs) as_ sched) as (s' & Hr & Hm & Hf).
  - apply Forall2_fmap_r. eapply Forall2_impl; [done|]. by intros ?? [? _].
  - eapply Forall2_Forall_l; [done|]. apply Forall_forall. by intros ? _ ? [_ ?].
  - apply Forall2_fmap_l. eapply Forall2_impl; [done|]. by intros ?? [? _].
  - exists s'. split; [done|]. split; [done|]. intros i c th a Hci Hth Hfin. pose proof (Hf i th a Hth Hfin) as Ha.
    destruct (Forall2_lookup_l _ _ _ _ _ Has Hci) as (a' & Ha' & _ & ?). by simplify_eq.
Qed.
Print Assumptions C80_set_readers.

(** ** Examples *)

Definition sops1 : list (sop nat) := [SoInsert 0 (HVal 3); SoInsert 0 (HVal 1); SoInsert 0 (HVal 3); SoInsert 0 (HVal 2); SoEraseKey 0 (HVal 3)].
Definition sops2 : list (sop nat) := [SoInsert 0 (HVal 9); SoInsert 0 (HVal 8); SoInsert 0 (HVal 7); SoCount 0 (HVal 7)].
Definition mops1 : list (mop nat) := [MoInsert 0 (HVal 3); MoInsert 0 (HVal 3); MoInsert 0 (HVal 1)].
Definition mops2 : list (mop nat) := [MoInsert 0 (HVal 4); MoInsert 0 (HVal 4); MoCount 0 (HVal 4); MoEraseKey 0 (HVal 4)].

(** Two threads; one allocation of the second one fails. *)
Example C80_sets_example :
  let ts := [(1, sops1, []); (1, sops2, [EvOk 1; EvOk 1; EvFail 0])] in
  let ps := [proj1_sig (st_set_life nat _ tcD nat_lt 1 sops1); proj1_sig (st_set_life nat _ tcD nat_lt 1 sops2)] in
  swo nat_lt /\ Forall2 (fun p t => presents p (set_life tcD nat_lt t.1.1 t.1.2)) ps ts /\
  option_map (fun r => ((fun x => option_map snd x) <$> r.1, r.2)) (results (crun (round_robin 2000) (start ∅ (zip_with (fun p t => Job p ∅ t.2) ps ts)))) =
    Some ([Some [([1; 2], [2; 1])]; Some [([7; 9], [9; 7])]], []).
Proof.
  intros ts ps. split; [apply nat_lt_swo|]. split.
  - constructor; [exact (proj1 (proj2_sig (st_set_life nat _ tcD nat_lt 1 sops1)))|].
    constructor; [exact (proj1 (proj2_sig (st_set_life nat _ tcD nat_lt 1 sops2)))|constructor].
  - vm_compute. reflexivity.
Qed.
Example C80_multisets_example :
  let ts := [(1, mops1, []); (1, mops2, [])] in
  let ps := [proj1_sig (st_multi_life nat _ tcD nat_lt 1 mops1); proj1_sig (st_multi_life nat _ tcD nat_lt 1 mops2)] in
  swo nat_lt /\ Forall2 (fun p t => presents p (multi_life tcD nat_lt t.1.1 t.1.2)) ps ts /\
  option_map (fun r => ((fun x => option_map snd x) <$> r.1, r.2)) (results (crun (round_robin 2000) (start ∅ (zip_with (fun p t => Job p ∅ t.2) ps ts)))) =
    Some ([Some [([1; 3; 3], [3; 3; 1])]; Some [([], [])]], []).
Proof.
  intros ts ps. split; [apply nat_lt_swo|]. split.
  - constructor; [exact (proj1 (proj2_sig (st_multi_life nat _ tcD nat_lt 1 mops1)))|].
    constructor; [exact (proj1 (proj2_sig (st_multi_life nat _ tcD nat_lt 1 mops2)))|constructor].
  - vm_compute. reflexivity.
Qed.

(** Two threads read the set 5,10,15,20,30,40. *)
Example C80_set_readers_example :
  let H := set_heap_of 0 1 exT in
  let cs := [SrAll; SrFind 15] in
  let ps := (fun c => proj1_sig (st_exec_sread true nat_lt exO c)) <$> cs in
  set_shows nat_lt (World H [] None 0 0) exO [5; 10; 15; 20; 30; 40] /\
  Forall2 (fun p c => presents p (exec_sread nat_lt exO c) /\ only_reads p) ps cs /\
  option_map fst (results (crun (round_robin 600) (start H ((fun p => Job p H []) <$> ps)))) =
    Some [Some (SaList [5; 10; 15; 20; 30; 40]); Some (SaElem (Some 15))].
Proof.
  intros H cs ps. split.
  { destruct (proj1 (set_is_sin nat_lt exO exX ∅ (tw1 [])) (ex_set [])) as [t Ht]. exact (sin_shows nat_lt exO exX ∅ t (tw1 []) nat_lt_swo Ht). }
  split.
  { assert (forall c, presents (proj1_sig (st_exec_sread true nat_lt exO c)) (exec_sread nat_lt exO c) /\
      only_reads (proj1_sig (st_exec_sread true nat_lt exO c))) as Hc.
    { intros c. split; [exact (proj1 (proj2_sig (st_exec_sread true nat_lt exO c)))|].
      exact (proj2 (proj2_sig (st_exec_sread true nat_lt exO c)) eq_refl). }
    constructor; [apply Hc|]. constructor; [apply Hc|constructor]. }
  vm_compute. reflexivity.
Qed.

(** Two threads insert into the same set: there is a schedule after which a
    later visit does not find one of the values. *)
Definition put_one (v : nat) : M (tcell nat) bool := let! r := insert_unique tcD nat_lt exO (TAVal v) in ret r.2.
Lemma st_put_one v : steps false (put_one v).
Proof. unfold put_one. stp. Defined.
Definition seen (r : csys (tcell nat) bool + fault) : option (list nat) :=
  match r with
  | inl s => match t_walk exO (World (cs_mem s) [] None 0 0) with Done l _ => Some l | Fault _ => None end
  | inr _ => None
  end.
Example C80_set_race :
  let H := set_heap_of 0 1 exT in
  let s0 := start H [Job (proj1_sig (st_put_one 35)) H []; Job (proj1_sig (st_put_one 36)) H []] in
  seen (crun (replicate 6 0 ++ replicate 300 1 ++ replicate 300 0) s0) = Some [5; 10; 15; 20; 30; 36; 40] /\
  seen (crun (replicate 20 0 ++ replicate 300 1 ++ replicate 300 0) s0) = Some [5; 10; 15; 20; 30; 36; 35; 40].
Proof. split; by vm_compute. Qed.
