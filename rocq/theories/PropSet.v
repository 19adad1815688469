(** * Properties C30-C40: set

    Stated over the model (RbModel.v) with the vocabulary of RbSpec.v and
    RbHistSpec.v.  [runs m w Q]: the call [m], started in machine state [w],
    returns without undefined behaviour or failing assertion, and [Q] holds of
    its result and the state afterwards.  [set_is comp o xs hf w]: the heap of
    [w] consists of exactly the set [o] and of [hf]; the elements of the set
    are, in order, the values [v] in the nodes [a] for the pairs [(a, v)] of
    [xs].  [tpos hdr xs i]: the iterator to element number [i], end() if there
    is none. *)
From Verif Require Import RbExtra.

(** ** Concrete sets for the examples and counterexamples *)

Definition tcD : cfg nat := Cfg true 8 (2^62) 0 Direct 0.
Definition tw0 (orc : list event) : world (tcell nat) := World ∅ orc None 0 0.
Definition nat_lt (x y : nat) : bool := x <? y.
Lemma nat_lt_swo : swo nat_lt.
Proof.
  unfold nat_lt. split_and!.
  - intros x. by apply Nat.ltb_irrefl.
  - intros x y z. rewrite !Nat.ltb_lt. lia.
  - intros x y z. rewrite !Nat.ltb_lt. lia.
Qed.
(** the set 5,10,15,20,30,40 with header 1; 20 is the root *)
Definition exT : tree nat :=
  Node Black 2 20 (Node Red 3 10 (Node Black 4 5 Leaf Leaf) (Node Black 5 15 Leaf Leaf))
                  (Node Black 6 30 Leaf (Node Red 7 40 Leaf Leaf)).
Definition exO : tset := TSet 0 1.
Definition exX : list (addr * nat) := elems exT.
Definition tw1 (orc : list event) : world (tcell nat) := World (set_heap_of 0 1 exT) orc None 0 0.
Lemma ex_set orc : set_is nat_lt exO exX ∅ (tw1 orc).
Proof. apply good_is. by vm_compute. Qed.
(** a second one, 7,15,50, with header 20 *)
Definition exT2 : tree nat := Node Black 21 15 (Node Red 22 7 Leaf Leaf) (Node Red 23 50 Leaf Leaf).
Definition exO2 : tset := TSet 0 20.
Definition exX2 : list (addr * nat) := elems exT2.
Definition exH2 : gmap addr (tcell nat) := set_heap_of 0 20 exT2.
Definition tw2 (orc : list event) : world (tcell nat) := World (set_heap_of 0 1 exT ∪ exH2) orc None 0 0.
Lemma ex_own2 : set_own nat_lt 0 20 exX2 exH2.
Proof. apply good_own. by vm_compute. Qed.
Lemma ex_disj : set_heap_of 0 1 exT ##ₘ exH2.
Proof. apply map_disjoint_dom. apply (bool_decide_eq_true_1 (dom (set_heap_of 0 1 exT) ## dom exH2)). by vm_compute. Qed.
Lemma ex_set2 orc : set_is nat_lt exO exX exH2 (tw2 orc).
Proof.
  exists (set_heap_of 0 1 exT). split; [apply good_own; by vm_compute|]. split; [done|]. apply ex_disj.
Qed.

Lemma heap_whole {C} (w : world C) : heap_is w ∅ (w_heap w).
Proof. split; [by rewrite (left_id_L ∅ (∪))|apply map_disjoint_empty_l]. Qed.

(** ** C30 *)

Theorem C30_set_history V (cf : cfg V) comp k ops w :
  swo comp ->
  runs (set_program cf comp k ops) w (fun r w' =>
    length r.1 = k /\
    exists ls, sops_spec comp ops (replicate k []) r.2 ls /\ length ls = k /\
      (forall i o l, r.1 !! i = Some o -> ls !! i = Some l -> set_shows comp w' o l) /\
      runs (destroy_sets r.1) w' (fun _ w'' => w_heap w'' = w_heap w)).
Proof.
  intros Hswo. unfold set_program. rbind.
  eapply (new_sets_spec cf comp k w (w_heap w) ∅ []); [done|apply heap_whole|].
  intros hds hv' w1 Hl Ho Hh _. rewrite app_nil_r in Ho.
  assert (srow cf comp hds (replicate k []) hv') as Hr. { split; [by rewrite replicate_length|done]. }
  rbind. eapply runs_exec_sops; [done|exact Hr|exact Hh|]. intros rs xss' hv2 w' Hr' Hh' Hs. apply runs_ret. cbn [fst snd].
  split; [by rewrite fmap_length|]. exists (vals xss'). split_and!.
  - unfold vals in Hs at 1. by rewrite fmap_replicate in Hs.
  - unfold vals. rewrite fmap_length. rewrite <-Hl. symmetry. apply Hr'.
  - intros i o l Hi Hls. rewrite list_lookup_fmap in Hi. destruct (hds !! i) as [h|] eqn:Eh; simplify_eq/=.
    rewrite vals_lookup in Hls. destruct (xss' !! i) as [xs|] eqn:Ex; simplify_eq/=. by eapply srow_shows.
  - by eapply destroy_sets_spec.
Qed.
Print Assumptions C30_set_history.

(** What the history means for a client that only inserts and erases: a key
    is found exactly if the last call about an equivalent key inserted it
    successfully. *)
Inductive kop (V : Type) := KIns (v : V) | KDel (v : V).
Arguments KIns {V}.
Arguments KDel {V}.
Definition kop_sop {V} (op : kop V) : sop V :=
  match op with KIns v => SoInsert 0 (HVal v) | KDel v => SoEraseKey 0 (HVal v) end.
(** Is a key equivalent to [v] present after the calls [ops] with results [rs]? *)
Fixpoint present {V} (comp : V -> V -> bool) (v : V) (ops : list (kop V)) (rs : list (option error * sans V)) (b : bool) : bool :=
  match ops, rs with
  | op :: ops, (e, _) :: rs =>
      present comp v ops rs
        (match op with
         | KIns u => if same_rank comp u v then (match e with None => true | Some _ => b end) else b
         | KDel u => if same_rank comp u v then false else b
         end)
  | _, _ => b
  end.

Definition member {V} (comp : V -> V -> bool) (v : V) (l : list V) : Prop := exists u, u ∈ l /\ equivalent comp u v.

Lemma equivalent_trans {V} (comp : V -> V -> bool) x y z :
  swo comp -> equivalent comp x y -> equivalent comp y z -> equivalent comp x z.
Proof.
  intros (Hirr & Htr & Hneg) [H1 H2] [H3 H4]. split.
  - destruct (comp x z) eqn:E; [|done]. destruct (Hneg x z y E); congruence.
  - destruct (comp z x) eqn:E; [|done]. destruct (Hneg z x y E); congruence.
Qed.
Lemma equivalent_sym {V} (comp : V -> V -> bool) x y : equivalent comp x y -> equivalent comp y x.
Proof. intros [H1 H2]. split; done. Qed.
Lemma same_rank_equivalent {V} (comp : V -> V -> bool) x y : same_rank comp x y = true <-> equivalent comp x y.
Proof.
  unfold same_rank, equivalent. destruct (comp x y), (comp y x); simpl; intuition congruence.
Qed.

Lemma kop_step {V} (comp : V -> V -> bool) (op : kop V) l e a ls1 v b :
  swo comp -> ascending comp l -> sop_spec comp (kop_sop op) [l] e a ls1 -> (b = true <-> member comp v l) ->
  exists l1, ls1 = [l1] /\
    ((match op with
      | KIns u => if same_rank comp u v then (match e with None => true | Some _ => b end) else b
      | KDel u => if same_rank comp u v then false else b
      end) = true <-> member comp v l1).
Proof.
  intros Hswo Hasc Hs Hb. destruct op as [u|u]; simpl in Hs.
  - destruct e as [e|].
    + subst. exists l. split; [done|]. by destruct (same_rank comp u v).
    + destruct Hs as (b' & u' & l' & -> & Hput & ->). exists l'. split; [done|].
      destruct (same_rank comp u v) eqn:Er.
      * apply same_rank_equivalent in Er. split; [intros _|done]. destruct b'; simpl in Hput.
        -- destruct Hput as (-> & Hp & _). exists u. split; [rewrite Hp; by left|done].
        -- destruct Hput as (Hin & Heq & ->). exists u'. split; [done|]. by eapply equivalent_trans.
      * rewrite Hb. destruct b'; simpl in Hput.
        -- destruct Hput as (-> & Hp & _). unfold member. setoid_rewrite Hp. split.
           ++ intros (x & Hx & ?). exists x. split; [by right|done].
           ++ intros (x & [->|Hx]%elem_of_cons & Heq); [|eauto]. apply same_rank_equivalent in Heq. congruence.
        -- by destruct Hput as (_ & _ & ->).
  - destruct Hs as (-> & [(Habs & -> & ->)|(u' & l' & Heq & Hp & -> & ->)]).
    + exists l. split; [done|]. destruct (same_rank comp u v) eqn:Er; [|done].
      apply same_rank_equivalent in Er. split; [done|]. intros (x & Hx & Hxv). exfalso. apply (Habs x Hx).
      eapply equivalent_trans; [done|exact Hxv|by apply equivalent_sym].
    + exists l'. split; [done|]. destruct (same_rank comp u v) eqn:Er.
      * apply same_rank_equivalent in Er. split; [done|]. intros (x & Hx & Hxv). exfalso.
        (* two equivalent elements in an ascending list *)
        apply elem_of_Permutation in Hx as [l2 Hl2]. rewrite Hl2 in Hp.
        assert (equivalent comp u' x) as Hux.
        { eapply equivalent_trans; [done|exact Heq|]. eapply equivalent_trans; [done|exact Er|by apply equivalent_sym]. }
        assert (forall x y l, ascending comp l -> l ≡ₚ x :: y :: l2 -> equivalent comp x y -> False) as Hno; [|by eapply Hno].
        clear -Hswo. intros x y l Hasc Hp Heq.
        assert (exists i j, i <> j /\ l !! i = Some x /\ l !! j = Some y) as (i & j & Hij & Hi & Hj).
        { assert (x ∈ l) as Hx by (rewrite Hp; left). apply elem_of_list_split in Hx as (A & B & ->).
          rewrite <-Permutation_middle in Hp. apply Permutation_cons_inv in Hp.
          assert (y ∈ A ++ B) as Hy by (rewrite Hp; left). apply elem_of_app in Hy as [[j Hj]%elem_of_list_lookup|[j Hj]%elem_of_list_lookup].
          - exists (length A), j. pose proof (lookup_lt_Some _ _ _ Hj). split_and!; [lia|by apply list_lookup_middle|by rewrite lookup_app_l].
          - exists (length A), (length A + S j). split_and!; [lia|by apply list_lookup_middle|].
            rewrite lookup_app_r by lia. by replace (length A + S j - length A) with (S j) by lia. }
        destruct Heq as [H1 H2]. destruct (decide (i < j)).
        -- rewrite (Hasc i j x y) in H1; done.
        -- rewrite (Hasc j i y x) in H2; [done|lia|done|done].
      * rewrite Hb. unfold member. setoid_rewrite Hp. split.
        -- intros (x & [->|Hx]%elem_of_cons & Hxv); [|eauto]. exfalso.
           assert (same_rank comp u v = true); [|congruence]. apply same_rank_equivalent.
           eapply equivalent_trans; [done|by apply equivalent_sym|done].
        -- intros (x & Hx & ?). exists x. split; [by right|done].
Qed.

Lemma kops_find V (cf : cfg V) comp ops : forall hds xss hv hf w l,
  swo comp -> srow cf comp hds xss hv -> heap_is w hv hf -> vals xss = [l] ->
  runs (exec_sops cf comp (kop_sop <$> ops) (TSet (c_dflt cf) <$> hds)) w (fun rs w' =>
    exists l', (forall v b, (b = true <-> member comp v l) -> (present comp v ops rs b = true <-> member comp v l')) /\
      exists xss' hv', srow cf comp hds xss' hv' /\ heap_is w' hv' hf /\ vals xss' = [l']).
Proof.
  induction ops as [|op ops IH]; intros hds xss hv hf w l Hswo Hr Hh Hl.
  - simpl. apply runs_ret. exists l. split; [done|]. by exists xss, hv.
  - cbn [fmap list_fmap exec_sops]. rbind. apply runs_put_err. rbind.
    eapply runs_mono; [eapply runs_exec_sop; [done|exact Hr| |]; [exact Hh|done]|].
    intros a w1 (xss1 & hv1 & Hr1 & Hh1 & Hs & _). rbind. apply runs_get_err. rbind.
    rewrite Hl in Hs.
    assert (ascending comp l) as Hasc.
    { destruct xss as [|xs xss]; [done|]. destruct hds as [|h hds]; [by destruct Hr|].
      simpl in Hl. simplify_eq. by destruct (srow_shows cf comp _ _ _ _ _ 0 h xs Hswo Hr Hh eq_refl eq_refl). }
    assert (exists l1, vals xss1 = [l1]) as [l1 Hl1].
    { destruct (kop_step comp op l (w_err w1) a (vals xss1)
                  (match op with KIns u | KDel u => u end)
                  (bool_decide (Exists (fun u => same_rank comp u (match op with KIns u | KDel u => u end) = true) l)) Hswo Hasc Hs) as (l1 & ? & _); [|eauto].
      rewrite bool_decide_eq_true, Exists_exists. unfold member. setoid_rewrite same_rank_equivalent. done. }
    eapply runs_mono; [by eapply IH|]. intros rs w' (l' & Hp & xss' & hv' & Hr' & Hh' & Hl'). apply runs_ret.
    exists l'. split; [|by exists xss', hv']. intros v b Hb. simpl. apply Hp.
    destruct (kop_step comp op l (w_err w1) a (vals xss1) v b Hswo Hasc Hs Hb) as (l2 & Hl2 & Hst).
    rewrite Hl1 in Hl2. by simplify_eq.
Qed.

(** After every history of insertions and removals of keys, find() succeeds
    exactly on the keys inserted (successfully) and not removed since. *)
Theorem C30_find_exact V (cf : cfg V) comp ops w v :
  swo comp ->
  runs (set_program cf comp 1 (kop_sop <$> ops)) w (fun r w' =>
    match r.1 with
    | [o] => runs (t_find comp o (TAVal v)) w' (fun it _ => it <> t_end o <-> present comp v ops r.2 false = true)
    | _ => False
    end).
Proof.
  intros Hswo. unfold set_program. rbind.
  eapply (new_sets_spec cf comp 1 w (w_heap w) ∅ []); [done|apply heap_whole|].
  intros hds hv' w1 Hl Ho Hh _. rewrite app_nil_r in Ho. destruct hds as [|h [|]]; try done.
  assert (srow cf comp [h] [[]] hv') as Hr by done.
  rbind. eapply runs_mono; [eapply kops_find; [done|exact Hr|exact Hh|done]|].
  intros rs w' (l' & Hp & xss' & hv2 & Hr' & Hh' & Hl'). apply runs_ret. cbn [fst snd fmap list_fmap].
  destruct xss' as [|xs [|]]; try done. simpl in Hl'. simplify_eq.
  destruct (srow_at _ _ _ _ _ 0 h xs Hr' eq_refl eq_refl) as (R & _ & Ho1 & _).
  destruct (own_get _ _ _ _ _ _ _ _ Ho1 Hh') as (hr & t & _ & _ & Hs).
  assert (present comp v ops rs false = true <-> member comp v xs.*2) as Hpv.
  { apply Hp. split; [done|]. intros (u & Hu & _). by apply elem_of_nil in Hu. }
  eapply find_spec; [done|exact Hs|done| |].
  - intros i a u Hi H1 H2. rewrite Hpv. split; [intros _|intros _].
    + exists u. split; [|done]. apply elem_of_list_fmap. exists (a, u). split; [done|by eapply elem_of_list_lookup_2].
    + rewrite <-(tpos_some h _ _ _ _ Hi). eapply (tpos_ne comp _ _ _ _ _ _ Hs). by eapply lookup_lt_Some.
  - intros Hno. rewrite Hpv. split; [done|]. intros (u & Hu & He). by destruct (far_absent comp v xs Hno u Hu).
Qed.
Print Assumptions C30_find_exact.

#[local] Instance sans_eq_dec : EqDecision (sans nat).
Proof. solve_decision. Defined.
(** two sets; one allocation and one element copy fail *)
Example C30_example :
  let ops := [SoInsert 0 (HVal 5); SoInsert 0 (HVal 3); SoInsert 0 (HVal 9); SoInsert 0 (HVal 9); SoInsert 0 (HVal 5);
              SoInsert 0 (HVal 8); SoInsert 0 (HVal 7); SoEraseKey 0 (HVal 4); SoEraseKey 0 (HElem 0 1); SoCopy 1 0;
              SoErase 1 0; SoFind 0 (HVal 3); SoFind 1 (HVal 3)] in
  let w := tw0 [EvOk 5; EvOk 1; EvOk 6; EvOk 1; EvFail 0; EvOk 8; EvOk 1; EvOk 9; EvFail 7] in
  runs (let! r := set_program tcD nat_lt 2 ops in
        let! l0 := t_walk (default exO (r.1 !! 0)) in
        let! l1 := t_walk (default exO (r.1 !! 1)) in
        ret (r.2, l0, l1)) w (fun r _ =>
    r = ([(None, AnsPair (Some 5) true); (None, AnsPair (Some 3) true); (Some EBadAlloc, AnsPair None true);
          (None, AnsPair (Some 9) true); (None, AnsPair (Some 5) false); (Some (EElem 7), AnsPair None true);
          (None, AnsPair (Some 7) true); (None, AnsNum 0); (None, AnsNum 1); (None, AnsNone);
          (None, AnsIter (Some 7)); (None, AnsIter (Some 3)); (None, AnsIter None)], [3; 7; 9], [7; 9])).
Proof. cbv zeta. compute_run. Qed.

(** ** C31 *)

Theorem C31_iteration V (comp : V -> V -> bool) o xs hf w :
  swo comp -> set_is comp o xs hf w ->
  ascending comp xs.*2 /\
  t_walk o w = Done xs.*2 w /\ t_rwalk o w = Done (reverse xs.*2) w /\
  (forall i v, xs.*2 !! i = Some v ->
     runs (rb_increment (tpos (t_hdr o) xs i)) w (fun it w' => w' = w /\ it = tpos (t_hdr o) xs (S i)) /\
     runs (rb_decrement (tpos (t_hdr o) xs (S i))) w (fun it w' => w' = w /\ it = tpos (t_hdr o) xs i) /\
     tread (tpos (t_hdr o) xs i) w = Done v w) /\
  (forall m u, xs.*2 !! 0 = Some m -> u ∈ xs.*2 ->
     runs (let! b := t_begin o in tread b) w (fun x w' => w' = w /\ x = m) /\ (u = m \/ comp m u = true)).
Proof.
  intros Hswo [t Hs]%set_is_sin. pose proof (sin_shows comp o xs hf t w Hswo Hs) as (Ha & _ & _ & Hw & Hrw & _).
  split_and!; [done..| |].
  - intros i v Hi. rewrite list_lookup_fmap in Hi. destruct (xs !! i) as [[a v']|] eqn:Ei; simplify_eq/=.
    pose proof (lookup_lt_Some _ _ _ Ei) as Hlt. split_and!.
    + eapply (RbSet.runs_inc comp); [exact Hs|done|done].
    + eapply (RbSet.runs_dec comp); [exact Hs|lia|done].
    + rewrite (tpos_some _ _ _ _ _ Ei). apply t_runs_state. intros Q HQ. by eapply tread_spec.
  - intros m u Hm Hu. rewrite list_lookup_fmap in Hm. destruct (xs !! 0) as [[a v']|] eqn:E0; simplify_eq/=. split.
    + rbind. eapply begin_spec; [exact Hs|]. rewrite (tpos_some _ _ _ _ _ E0). by eapply tread_spec.
    + apply elem_of_list_lookup in Hu as [j Hj]. destruct j as [|j].
      * left. rewrite list_lookup_fmap, E0 in Hj. by simplify_eq/=.
      * right. eapply (Ha 0 (S j)); [lia| |done]. by rewrite list_lookup_fmap, E0.
Qed.
Print Assumptions C31_iteration.

Theorem C31_reachable V (cf : cfg V) comp k ops w :
  swo comp ->
  runs (set_program cf comp k ops) w (fun r w' => forall i o, r.1 !! i = Some o ->
    exists l, ascending comp l /\ t_walk o w' = Done l w' /\ t_rwalk o w' = Done (reverse l) w' /\ t_size o w' = Done (length l) w').
Proof.
  intros Hswo. eapply runs_mono; [by apply C30_set_history|]. intros r w' (Hl & ls & _ & Hls & Hsh & _) i o Hi.
  destruct (lookup_lt_is_Some_2 ls i) as [l Hli]; [apply lookup_lt_Some in Hi; lia|].
  exists l. by destruct (Hsh _ _ _ Hi Hli) as (? & ? & _ & ? & ? & _).
Qed.
Print Assumptions C31_reachable.

Example C31_example :
  set_is nat_lt exO exX ∅ (tw1 []) /\ exX.*2 = [5; 10; 15; 20; 30; 40] /\
  runs (let! a := t_walk exO in let! b := t_rwalk exO in ret (a, b)) (tw1 []) (fun r _ =>
    r = ([5; 10; 15; 20; 30; 40], [40; 30; 20; 15; 10; 5])).
Proof. split; [apply ex_set|]. split; [done|]. compute_run. Qed.

(** ** C32 *)

(** Every set a program can get at is of the form [set_is]. *)
Theorem C32_reachable V (cf : cfg V) comp k ops w :
  swo comp ->
  runs (set_program cf comp k ops) w (fun r w' => forall i o, r.1 !! i = Some o -> exists xs hf, set_is comp o xs hf w').
Proof.
  intros Hswo. unfold set_program. rbind.
  eapply (new_sets_spec cf comp k w (w_heap w) ∅ []); [done|apply heap_whole|].
  intros hds hv' w1 Hl Ho Hh _. rewrite app_nil_r in Ho.
  assert (srow cf comp hds (replicate k []) hv') as Hr. { split; [by rewrite replicate_length|done]. }
  rbind. eapply runs_exec_sops; [done|exact Hr|exact Hh|]. intros rs xss' hv2 w' Hr' Hh' Hs. apply runs_ret. cbn [fst snd].
  intros i o Hi. rewrite list_lookup_fmap in Hi. destruct (hds !! i) as [h|] eqn:Eh; simplify_eq/=.
  destruct (srow_lookup _ _ _ _ _ _ _ Hr' Eh) as [xs Hxs]. destruct (srow_at _ _ _ _ _ _ _ _ Hr' Eh Hxs) as (R & _ & Ho1 & _).
  destruct (own_get _ _ _ _ _ _ _ _ Ho1 Hh') as (hr & t & _ & _ & Hsin). exists xs, (hr ∪ (w_heap w)). apply set_is_sin. by exists t.
Qed.
Print Assumptions C32_reachable.

(** From every element at most 2*log2(n+1) parent links lead to the header
    (the root is one link away from it). *)
Theorem C32_depth V (comp : V -> V -> bool) o xs hf w a v :
  set_is comp o xs hf w -> (a, v) ∈ xs ->
  exists d, d <= 2 * Nat.log2 (length xs + 1) /\ climb d a w = Done (t_hdr o) w.
Proof.
  intros [t Hs]%set_is_sin Hin. pose proof (sin_height _ _ _ _ _ _ Hs) as Hh. destruct Hs as (Ht & <- & _ & _).
  apply elem_of_list_lookup in Hin as [i Hi]. destruct (find_ctx _ _ _ _ Hi) as (k & c & l & r & -> & _).
  exists (S (depth k)). split.
  - etrans; [apply (depth_le_height k c a v l r)|exact Hh].
  - apply t_runs_state. intros Q HQ. by eapply climb_spec.
Qed.
Print Assumptions C32_depth.

(** The links of a set form a tree: black root, no red node with a red child,
    equally many black nodes on all paths, low. *)
Theorem C32_red_black V (comp : V -> V -> bool) o xs hf w :
  set_is comp o xs hf w ->
  exists t, elems t = xs /\ tree_at (t_alloc o) (w_heap w) (t_hdr o) t /\
    runs (get_parent (t_hdr o)) w (fun r _ => r = root t) /\
    tcol t = Black /\ nored t /\ (exists n, bal n t) /\ height t <= 2 * Nat.log2 (length xs + 1).
Proof.
  intros [t Hs]%set_is_sin. pose proof (sin_height _ _ _ _ _ _ Hs) as Hh. pose proof (sin_hdr _ _ _ _ _ _ Hs) as Hc.
  destruct Hs as (Ht & He & (H1 & H2 & H3) & _). exists t. split_and!; try done.
  - apply Ht.
  - eapply runs_root; [exact Hc|done].
Qed.
Print Assumptions C32_red_black.

(** after 15 ascending insertions and 5 removals the longest way to the
    header has 5 links, where a list would need 10 *)
Example C32_example :
  runs (let! r := set_program tcD nat_lt 1 ((fun i => SoInsert 0 (HVal i)) <$> seq 0 15) in
        let o := default exO (r.1 !! 0) in
        let! _ := exec_sops tcD nat_lt ((fun i => SoErase 0 i) <$> [0; 0; 1; 3; 5]) [o] in
        let! n := t_size o in
        let! a := t_iter_at o 7 in
        let! top := climb 5 a in
        ret (n, bool_decide (top = t_hdr o), 2 * Nat.log2 (n + 1))) (tw0 []) (fun r _ => r = (10, true, 6)).
Proof. compute_run. Qed.

(** ** C33 *)

Lemma tread_same {V} a (w w' : world (tcell V)) v : tread a w = Done v w' -> w' = w.
Proof.
  unfold tread, load, bind, get_heap. destruct (w_heap w !! a) as [c|]; [|done]. simpl.
  destruct (tn_body c) as [|al [u|]]; [done| |done]. by intros [= _ <-].
Qed.
Lemma read_targ_same {V} x (w w' : world (tcell V)) v : read_targ x w = Done v w' -> w' = w.
Proof. destruct x as [u|a]; simpl; [by intros [= _ <-]|apply tread_same]. Qed.
Lemma get_field_same {V A} (f : tcell V -> option A) a (w w' : world (tcell V)) v : get_field f a w = Done v w' -> w' = w.
Proof.
  unfold get_field, load, bind, get_heap. destruct (w_heap w !! a) as [c|]; [|done]. simpl.
  destruct (f c); [|done]. by intros [= _ <-].
Qed.
(** The loops, run with a budget of 2*log2(n+1)+1 rounds, find what the
    functions find. *)
Theorem C33_lookup_logarithmic V (comp : V -> V -> bool) o xs hf w k v :
  swo comp -> set_is comp o xs hf w -> targ_is xs hf k v ->
  let rounds := 2 * Nat.log2 (length xs + 1) + 1 in
  runs (let! root := get_parent (t_hdr o) in lower_loop comp rounds root (t_end o) k) w (fun it w' =>
    w' = w /\ lower_bound comp o k w = Done it w) /\
  runs (let! root := get_parent (t_hdr o) in upper_loop comp rounds root (t_end o) k) w (fun it w' =>
    w' = w /\ upper_bound comp o k w = Done it w) /\
  runs (let! root := get_parent (t_hdr o) in unique_pos_loop comp rounds root (t_end o) true k) w (fun r w' =>
    w' = w /\
    (let! root := get_parent (t_hdr o) in let! fuel := tree_fuel in unique_pos_loop comp fuel root (t_end o) true k) w = Done r w).
Proof.
  intros Hswo [t Hs]%set_is_sin Hk rounds. pose proof (sin_height _ _ _ _ _ _ Hs) as Hh. unfold bound in Hh.
  pose proof (targ_rd _ _ _ _ _ _ _ _ Hs Hk) as Hrd. pose proof (sin_hdr _ _ _ _ _ _ Hs) as Hc.
  pose proof (tree_height_fuel _ _ _ _ _ _ Hs) as Hf. destruct Hs as (Ht & HE & Hrb & Hasc).
  split_and!.
  - rbind. eapply runs_root; [exact Hc|].
    eapply (lower_loop_spec comp (t_alloc o) (t_hdr o) _ _ _ _ _ RbProofs.Top); [exact Ht|by apply rd_reads|unfold rounds; lia| |].
    { rewrite HE. by apply asc_down_lower. }
    split; [done|]. apply t_runs_state. intros Q HQ. unfold lower_bound. rbind. eapply runs_root; [exact Hc|].
    unfold m_lower_bound. rbind. apply runs_tree_fuel.
    eapply (lower_loop_spec comp (t_alloc o) (t_hdr o) _ _ _ _ _ RbProofs.Top); [exact Ht|by apply rd_reads|done| |exact HQ].
    rewrite HE. by apply asc_down_lower.
  - rbind. eapply runs_root; [exact Hc|].
    eapply (upper_loop_spec comp (t_alloc o) (t_hdr o) _ _ _ _ _ RbProofs.Top); [exact Ht|by apply rd_reads|unfold rounds; lia| |].
    { rewrite HE. by apply asc_down_upper. }
    split; [done|]. apply t_runs_state. intros Q HQ. unfold upper_bound. rbind. eapply runs_root; [exact Hc|].
    unfold m_upper_bound. rbind. apply runs_tree_fuel.
    eapply (upper_loop_spec comp (t_alloc o) (t_hdr o) _ _ _ _ _ RbProofs.Top); [exact Ht|by apply rd_reads|done| |exact HQ].
    rewrite HE. by apply asc_down_upper.
  - rbind. eapply runs_root; [exact Hc|]. rewrite <-HE in Hasc.
    assert (forall fuel, height t < fuel ->
      runs (unique_pos_loop comp fuel (root t) (t_end o) true k) w (fun r w' => w' = w /\ r = (t_end o, true) \/ w' = w)) as Hany.
    { intros fuel Hfu. eapply (unique_pos_spec comp (t_alloc o) (t_hdr o) _ _ _ _ _ RbProofs.Top); [exact Ht|by apply rd_reads|done|done|exact Hasc|..].
      - intros p Hp. by apply elem_of_nil in Hp.
      - intros p Hp. by apply elem_of_nil in Hp.
      - intros k' _ _ _. by right. }
    assert (forall f1 f2 x y c w1 r, f1 <= f2 -> unique_pos_loop comp f1 x y c k w1 = Done r w1 ->
      unique_pos_loop comp f2 x y c k w1 = Done r w1) as Hmono.
    { clear. induction f1 as [|f1 IH]; intros [|f2] x y c w1 r Hle Hr; try done; [lia|].
      cbn [unique_pos_loop] in *. destruct x as [x|]; [|done].
      revert Hr. unfold bind. destruct (read_targ k w1) as [kv w2|] eqn:E1; [|done].
      assert (w2 = w1) as -> by (by eapply read_targ_same).
      destruct (tread x w1) as [xv w3|] eqn:E2; [|done].
      assert (w3 = w1) as -> by (by eapply tread_same).
      destruct ((if comp kv xv then get_left x else get_right x) w1) as [x' w4|] eqn:E3; [|done].
      assert (w4 = w1) as -> by (destruct (comp kv xv); by eapply get_field_same).
      apply IH. lia. }
    destruct (Hany rounds) as (r & w' & Hr & Hw'); [unfold rounds; lia|]. assert (w' = w) as -> by (destruct Hw' as [[??]|?]; done).
    exists r, w. split; [done|]. split; [done|].
    destruct (decide (rounds <= S (S (size (w_heap w))))) as [Hle|Hgt].
    + apply t_runs_state. intros Q HQ. rbind. eapply runs_root; [exact Hc|]. rbind. apply runs_tree_fuel.
      eapply runs_eq; [|exact HQ]. by eapply Hmono.
    + apply t_runs_state. intros Q HQ. rbind. eapply runs_root; [exact Hc|]. rbind. apply runs_tree_fuel.
      destruct (Hany (S (S (size (w_heap w)))) Hf) as (r2 & w2 & Hr2 & Hw2). assert (w2 = w) as -> by (destruct Hw2 as [[??]|?]; done).
      eapply runs_eq; [exact Hr2|]. assert (S (S (size (w_heap w))) <= rounds) as Hle by lia.
      rewrite (Hmono _ rounds _ _ _ _ _ Hle Hr2) in Hr. by simplify_eq.
Qed.
Print Assumptions C33_lookup_logarithmic.

Example C33_example :
  set_is nat_lt exO exX ∅ (tw1 []) /\ targ_is exX ∅ (TAVal 17) 17 /\
  runs (let! root := get_parent (t_hdr exO) in lower_loop nat_lt (2 * Nat.log2 7 + 1) root (t_end exO) (TAVal 17)) (tw1 []) (fun it _ => it = 2%positive) /\
  runs (let! root := get_parent (t_hdr exO) in lower_loop nat_lt 4 root (t_end exO) (TAVal 17)) (tw1 []) (fun it _ => it = 2%positive) /\
  (let! root := get_parent (t_hdr exO) in lower_loop nat_lt 3 root (t_end exO) (TAVal 17)) (tw1 []) = Fault FFuel.
Proof. split; [apply ex_set|]. split; [done|]. split; [compute_run|]. split; [compute_run|]. by vm_compute. Qed.

(** ** C34: a failed insertion changes nothing and returns end() (but with
    [true] as if it had inserted, see below) *)

Theorem C34_insert_strong_partial V (cf : cfg V) comp o xs hf w x v :
  swo comp -> set_is comp o xs hf w -> w_err w = None -> targ_is xs hf x v ->
  runs (insert_unique cf comp o x) w (fun r w' =>
    match w_err w' with
    | Some e => tnode_error cf e /\ w_heap w' = w_heap w /\ r = (t_end o, true) /\ absent comp v xs.*2
    | None =>
        match r.2 with
        | true => exists pre post, xs = pre ++ post /\ w_heap w !! r.1 = None /\ set_is comp o (pre ++ (r.1, v) :: post) hf w'
        | false => w' = w /\ exists u, (r.1, u) ∈ xs /\ equivalent comp u v
        end
    end).
Proof.
  intros Hswo [t Hs]%set_is_sin He Hx. pose proof (targ_rd _ _ _ _ _ _ _ _ Hs Hx) as Hrd.
  eapply insert_unique_spec; [done|exact Hs|done|done| | |].
  - intros a pre post h' t' orc Hxs Ha Hs' _. simpl. exists pre, post. split_and!; [done..|]. apply set_is_sin. by exists t'.
  - intros i a u Hi H1 H2. simpl. rewrite He. split; [done|]. exists u. split; [by eapply elem_of_list_lookup_2|done].
  - intros w' e Hw' He' Hne Hno _. rewrite He'. split_and!; [done..|]. by apply far_absent.
Qed.
Print Assumptions C34_insert_strong_partial.

(** emplace, in contrast to insert, also returns [false] on failure *)
Theorem C34_emplace_strong V (cf : cfg V) comp o xs hf w x v :
  swo comp -> set_is comp o xs hf w -> w_err w = None -> targ_is xs hf x v ->
  runs (emplace_unique cf comp o x) w (fun r w' =>
    match w_err w' with
    | Some e => tnode_error cf e /\ w_heap w' = w_heap w /\ r = (t_end o, false)
    | None =>
        match r.2 with
        | true => exists pre post, xs = pre ++ post /\ w_heap w !! r.1 = None /\ set_is comp o (pre ++ (r.1, v) :: post) hf w'
        | false => w_heap w' = w_heap w /\ exists u, (r.1, u) ∈ xs /\ equivalent comp u v
        end
    end).
Proof.
  intros Hswo [t Hs]%set_is_sin He Hx. pose proof (targ_rd _ _ _ _ _ _ _ _ Hs Hx) as Hrd.
  eapply emplace_spec; [done|exact Hs|done|done| | |].
  - intros a pre post h' t' orc Hxs Ha Hs'. simpl. exists pre, post. split_and!; [done..|]. apply set_is_sin. by exists t'.
  - intros i a u orc Hi H1 H2. simpl. split; [done|]. exists u. split; [by eapply elem_of_list_lookup_2|done].
  - intros w' e Hw' He' Hne. rewrite He'. done.
Qed.
Print Assumptions C34_emplace_strong.

(** The last part of the claim is false: after a failed allocation
    insert_nothrow returns {end(), true}. *)
Theorem C34_failure_claims_insertion_refuted :
  ~ (forall V (cf : cfg V) comp o xs hf w x v,
       swo comp -> set_is comp o xs hf w -> w_err w = None -> targ_is xs hf x v ->
       runs (insert_unique cf comp o x) w (fun r w' => w_err w' <> None -> r.2 = false)).
Proof.
  intros Hall. specialize (Hall nat tcD nat_lt exO exX ∅ (tw1 [EvFail 0]) (TAVal 17) 17 nat_lt_swo (ex_set _) eq_refl eq_refl).
  destruct Hall as (r0 & w0 & Hr & Hc).
  assert (runs (insert_unique tcD nat_lt exO (TAVal 17)) (tw1 [EvFail 0]) (fun r w' => r.2 = true /\ w_err w' = Some EBadAlloc)) as Hrun
    by compute_run.
  apply (runs_done _ _ _ _ _ Hrun) in Hr as [H1 H2]. rewrite H2 in Hc. rewrite Hc in H1; done.
Qed.
Print Assumptions C34_failure_claims_insertion_refuted.

Example C34_example :
  set_is nat_lt exO exX ∅ (tw1 [EvOk 50; EvFail 3]) /\ targ_is exX ∅ (TAVal 17) 17 /\
  runs (insert_unique tcD nat_lt exO (TAVal 17)) (tw1 [EvOk 50; EvFail 3]) (fun r w' =>
    w_err w' = Some (EElem 3) /\ w_heap w' = w_heap (tw1 [])) /\
  runs (let! r := insert_unique tcD nat_lt exO (TAVal 17) in let! l := t_walk exO in ret (r, l)) (tw1 [EvOk 50; EvOk 1]) (fun r w' =>
    w_err w' = None /\ r = ((50%positive, true), [5; 10; 15; 17; 20; 30; 40])) /\
  runs (insert_unique tcD nat_lt exO (TARef 6)) (tw1 []) (fun r w' => w_err w' = None /\ r = (6%positive, false)).
Proof. split; [apply ex_set|]. split; [done|]. split; [compute_run|]. split; compute_run. Qed.

(** ** C35 *)

Theorem C35_erase V (cf : cfg V) comp o xs hf w i :
  set_is comp o xs hf w -> i < length xs ->
  runs (t_erase cf o (tpos (t_hdr o) xs i)) w (fun it w' =>
    let ys := take i xs ++ drop (S i) xs in
    set_is comp o ys hf w' /\ it = tpos (t_hdr o) ys i /\ it = tpos (t_hdr o) xs (S i) /\ t_no_calls w w').
Proof.
  intros [t Hs]%set_is_sin Hi. eapply erase_spec; [exact Hs|done|]. intros h' t' Hs'. cbv zeta. split_and!.
  - apply set_is_sin. by exists t'.
  - by rewrite tpos_del by lia.
  - done.
  - done.
Qed.
Print Assumptions C35_erase.

Theorem C35_erase_key V (cf : cfg V) comp o xs hf w k v :
  swo comp -> set_is comp o xs hf w -> targ_is xs hf k v ->
  runs (t_erase_key cf comp o k) w (fun n w' =>
    t_no_calls w w' /\
    ((n = 1 /\ exists i a u, xs !! i = Some (a, u) /\ equivalent comp u v /\ set_is comp o (take i xs ++ drop (S i) xs) hf w') \/
     (n = 0 /\ absent comp v xs.*2 /\ set_is comp o xs hf w'))).
Proof.
  intros Hswo [t Hs]%set_is_sin Hk. pose proof (targ_rd _ _ _ _ _ _ _ _ Hs Hk) as Hrd.
  eapply erase_key_spec; [done|exact Hs|done| |].
  - intros i a u h' t' Hi H1 H2 Hs'. split; [done|]. left. split; [done|]. exists i, a, u. split_and!; [done..|].
    apply set_is_sin. by exists t'.
  - intros h' t' Hno Hs'. split; [done|]. right. split_and!; [done|by apply far_absent|]. apply set_is_sin. by exists t'.
Qed.
Print Assumptions C35_erase_key.

Theorem C35_erase_range V (cf : cfg V) comp o xs hf w i j :
  set_is comp o xs hf w -> i <= j -> j <= length xs ->
  runs (t_erase_range cf o (tpos (t_hdr o) xs i) (tpos (t_hdr o) xs j)) w (fun it w' =>
    set_is comp o (take i xs ++ drop j xs) hf w' /\ it = tpos (t_hdr o) xs j /\ t_no_calls w w').
Proof.
  intros [t Hs]%set_is_sin Hij Hj. eapply erase_range_spec; [exact Hs|done|done|]. intros h' t' Hs'. split_and!; [|done|done].
  apply set_is_sin. by exists t'.
Qed.
Print Assumptions C35_erase_range.

(** an array of keys, none of which lies inside the set *)
Theorem C35_erase_keys V (cf : cfg V) comp o ks vs xs hf w :
  swo comp -> set_is comp o xs hf w -> Forall2 (targ_is [] hf) ks vs ->
  runs (t_erase_keys cf comp o ks) w (fun _ w' =>
    t_no_calls w w' /\ exists xs', set_is comp o xs' hf w' /\ xs' `sublist_of` xs /\
      forall p, p ∈ xs' <-> p ∈ xs /\ forall v, v ∈ vs -> ~ equivalent comp p.2 v).
Proof.
  intros Hswo Hs Hks. revert xs w Hs. induction Hks as [|k v ks vs Hk Hks IH]; intros xs w Hs; simpl.
  - apply runs_ret. split; [done|]. exists xs. split; [done|]. split; [done|]. intros p. split; [|by intros [? _]].
    intros Hp. split; [done|]. intros v Hv. by apply elem_of_nil in Hv.
  - rbind. eapply runs_mono; [eapply C35_erase_key; [done|exact Hs|]|].
    { destruct k as [|a]; [exact Hk|]. destruct Hk as [Hk|Hk]; [by apply elem_of_nil in Hk|by right]. }
    intros n w1 (Hn1 & Hc).
    assert (exists xs1, set_is comp o xs1 hf w1 /\ xs1 `sublist_of` xs /\ forall p, p ∈ xs1 <-> p ∈ xs /\ ~ equivalent comp p.2 v) as (xs1 & Hs1 & Hsub1 & Hin1).
    { destruct Hc as [(_ & i & a & u & Hi & Heq & Hs1)|(_ & Hab & Hs1)].
      - exists (take i xs ++ drop (S i) xs). split; [done|]. pose proof (take_drop_middle _ _ _ Hi) as Hmid. split.
        { rewrite <-Hmid at 3. apply sublist_app; [done|]. by apply sublist_cons. }
        intros p. rewrite <-Hmid at 3. rewrite !elem_of_app, elem_of_cons.
        assert (forall q, q ∈ take i xs \/ q ∈ drop (S i) xs -> ~ equivalent comp q.2 v) as Hother.
        { intros q Hq Hqv. destruct Hs as (hv & (Ha & _) & _).
          assert (exists j, j <> i /\ xs !! j = Some q) as (j & Hj & Hq').
          { destruct Hq as [Hq|Hq]; apply elem_of_list_lookup in Hq as [j Hj].
            - apply lookup_take_Some in Hj as [Hj ?]. exists j. split; [lia|done].
            - rewrite lookup_drop in Hj. exists (S i + j). split; [lia|done]. }
          assert (xs.*2 !! i = Some u) as Hi2 by (by rewrite list_lookup_fmap, Hi).
          assert (xs.*2 !! j = Some q.2) as Hj2 by (by rewrite list_lookup_fmap, Hq').
          destruct Heq as [E1 E2], Hqv as [E3 E4]. destruct Hswo as (_ & _ & Hw).
          destruct (decide (i < j)).
          - destruct (Hw _ _ v (Ha _ _ _ _ l Hi2 Hj2)); congruence.
          - assert (j < i) as Hji by lia. destruct (Hw _ _ v (Ha _ _ _ _ Hji Hj2 Hi2)); congruence. }
        split.
        + intros Hp. split; [tauto|auto].
        + intros [[Hp|[->|Hp]] Hne]; [by left|by destruct Hne|by right].
      - exists xs. split; [done|]. split; [done|]. intros p. split; [|by intros [? _]]. intros Hp. split; [done|]. apply Hab.
        by apply elem_of_list_fmap_1. }
    eapply runs_mono; [by apply IH|]. intros _ w' (Hn2 & xs' & Hs' & Hsub' & Hin'). split.
    { destruct Hn1 as (? & ? & ? & ?), Hn2 as (? & ? & ? & ?). repeat split; congruence. }
    exists xs'. split; [done|]. split; [by etrans|]. intros p. rewrite Hin', Hin1. split.
    + intros [[Hp Hpv] Hall]. split; [done|]. intros v' [->|Hv']%elem_of_cons; auto.
    + intros [Hp Hall]. split; [split; [done|apply Hall; by left]|]. intros v' Hv'. apply Hall. by right.
Qed.
Print Assumptions C35_erase_keys.

(** removing the root, which has two children *)
Example C35_example :
  set_is nat_lt exO exX ∅ (tw1 []) /\ tpos 1 exX 3 = 2%positive /\ 3 < length exX /\
  runs (let! it := t_erase tcD exO 2 in let! l := t_walk exO in ret (it, l)) (tw1 []) (fun r _ =>
    r = (6%positive, [5; 10; 15; 30; 40])) /\
  runs (let! it := t_erase_range tcD exO 4 6 in let! l := t_walk exO in ret (it, l)) (tw1 []) (fun r _ =>
    r = (6%positive, [30; 40])) /\
  Forall2 (targ_is [] ∅) [TAVal 30; TAVal 5; TAVal 7; TAVal 30] [30; 5; 7; 30] /\
  runs (do! t_erase_keys tcD nat_lt exO [TAVal 30; TAVal 5; TAVal 7; TAVal 30] in t_walk exO) (tw1 []) (fun l _ =>
    l = [10; 15; 20; 40]).
Proof.
  split; [apply ex_set|]. split; [done|]. split; [by vm_compute; lia|]. split; [compute_run|]. split; [compute_run|].
  split; [by repeat constructor|compute_run].
Qed.

(** ** C36 *)

Theorem C36_elements_stay V (cf : cfg V) comp op hds xss hv hf w :
  swo comp -> length hds = length xss -> sets_own comp (c_dflt cf) (zip hds xss) hv -> heap_is w hv hf -> w_err w = None ->
  runs (exec_sop cf comp op (TSet (c_dflt cf) <$> hds)) w (fun _ w' =>
    exists xss' hv', length hds = length xss' /\ sets_own comp (c_dflt cf) (zip hds xss') hv' /\ heap_is w' hv' hf /\
      forall a v, (a, v) ∈ concat xss -> ~ sop_kills comp op xss (a, v) ->
        (a, v) ∈ concat xss' /\ tread a w' = Done v w').
Proof.
  intros Hswo Hl Ho Hh He. eapply runs_mono; [by eapply runs_exec_sop|].
  intros _ w' (xss' & hv' & [Hl' Ho'] & Hh' & _ & Hk). exists xss', hv'. split_and!; [done..|].
  intros a v Hin Hnk. assert (Hin' : (a, v) ∈ concat xss') by (by destruct (Hk _ Hin)).
  split; [done|]. apply in_rows in Hin' as (i & xs & Hxs & Hx).
  destruct (lookup_lt_is_Some_2 hds i) as [h Hi]; [rewrite Hl'; by eapply lookup_lt_Some|].
  destruct (srow_at cf comp hds xss' hv' i h xs (conj Hl' Ho') Hi Hxs) as (R & _ & Ho1 & _).
  destruct (own_get _ _ _ _ _ _ _ _ Ho1 Hh') as (hr & t & _ & _ & Hs).
  apply elem_of_list_lookup in Hx as [j Hj]. apply t_runs_state. intros Q HQ. by eapply tread_spec.
Qed.
Print Assumptions C36_elements_stay.

Example C36_example :
  sets_own nat_lt 0 [(1%positive, exX); (20%positive, exX2)] (set_heap_of 0 1 exT ∪ exH2) /\
  ~ sop_kills nat_lt (SoErase 0 3) [exX; exX2] (3%positive, 10) /\ sop_kills nat_lt (SoErase 0 3) [exX; exX2] (2%positive, 20) /\
  runs (do! exec_sop tcD nat_lt (SoErase 0 3) [exO; exO2] in
        do! exec_sop tcD nat_lt (SoSwap 0 1) [exO; exO2] in
        let! x := tread 3 in let! y := tread 22 in let! l := t_walk exO in let! l2 := t_walk exO2 in ret (x, y, l, l2)) (tw2 [])
    (fun r _ => r = (10, 7, [7; 15; 50], [5; 10; 15; 30; 40])).
Proof.
  split_and!.
  - exists (set_heap_of 0 1 exT), exH2. split_and!; [done| |apply good_own; by vm_compute|].
    + apply ex_disj.
    + exists exH2, ∅. split_and!; [by rewrite (right_id_L ∅ (∪))|apply map_disjoint_empty_r|apply ex_own2|done].
  - by vm_compute.
  - by vm_compute.
  - compute_run.
Qed.

(** ** C37 *)

Theorem C37_bounds V (comp : V -> V -> bool) o xs hf w k v :
  swo comp -> set_is comp o xs hf w -> targ_is xs hf k v ->
  exists i j, i <= length xs /\ j <= length xs /\
    (forall m u, xs.*2 !! m = Some u -> comp u v = true <-> m < i) /\
    (forall m u, xs.*2 !! m = Some u -> comp v u = true <-> j <= m) /\
    lower_bound comp o k w = Done (tpos (t_hdr o) xs i) w /\
    upper_bound comp o k w = Done (tpos (t_hdr o) xs j) w /\
    equal_range comp o k w = Done (tpos (t_hdr o) xs i, tpos (t_hdr o) xs j) w /\
    t_count comp o k w = Done (j - i) w /\ i <= j /\
    (forall m u, xs.*2 !! m = Some u -> equivalent comp u v <-> i <= m < j).
Proof.
  intros Hswo [t Hs]%set_is_sin Hk. pose proof (targ_rd _ _ _ _ _ _ _ _ Hs Hk) as Hrd.
  assert (runs (equal_range comp o k) w (fun r w' => w' = w /\ exists i j, r = (tpos (t_hdr o) xs i, tpos (t_hdr o) xs j) /\
    splits (fun u => comp u v) xs i /\ splits (fun u => negb (comp v u)) xs j)) as (r & w' & Hr & -> & i & j & -> & Hi & Hj).
  { eapply equal_range_spec; [done|exact Hs|done|]. intros i j Hi Hj. split; [done|]. exists i, j. done. }
  exists i, j.
  assert (forall m u, xs.*2 !! m = Some u -> comp u v = true <-> m < i) as Hci.
  { intros m u Hm. rewrite list_lookup_fmap in Hm. destruct (xs !! m) as [[a u']|] eqn:Em; simplify_eq/=.
    destruct Hi as [_ Hi]. rewrite (Hi m a u Em). by rewrite bool_decide_eq_true. }
  assert (forall m u, xs.*2 !! m = Some u -> comp v u = true <-> j <= m) as Hcj.
  { intros m u Hm. rewrite list_lookup_fmap in Hm. destruct (xs !! m) as [[a u']|] eqn:Em; simplify_eq/=.
    destruct Hj as [_ Hj]. specialize (Hj m a u Em). destruct (comp v u); simpl in Hj; symmetry in Hj;
      [apply bool_decide_eq_false in Hj|apply bool_decide_eq_true in Hj]; split; intros; try done; lia. }
  assert (i <= j) as Hij. { destruct (splits_eq _ _ _ _ _ _ _ _ _ Hswo Hs Hi Hj) as [[-> _]|[-> _]]; lia. }
  split_and!; [apply Hi|apply Hj|done|done| | |done| |done|].
  - apply t_runs_state. intros Q HQ. eapply lower_bound_spec; [done|exact Hs|done|]. intros i' Hi'. by rewrite (splits_inj _ _ _ _ Hi' Hi).
  - apply t_runs_state. intros Q HQ. eapply upper_bound_spec; [done|exact Hs|done|]. intros j' Hj'. by rewrite (splits_inj _ _ _ _ Hj' Hj).
  - apply t_runs_state. intros Q HQ. unfold t_count. rbind. eapply runs_eq; [exact Hr|]. rbind. apply runs_cell_fuel. cbn [fst snd].
    eapply distance_spec; [exact Hs|done|apply Hj| |done]. destruct Hj as [Hj _]. pose proof (sin_fuel _ _ _ _ _ _ Hs). lia.
  - intros m u Hm. unfold equivalent. specialize (Hci m u Hm). specialize (Hcj m u Hm).
    destruct (comp u v), (comp v u); intuition (try done; try lia).
Qed.
Print Assumptions C37_bounds.

Theorem C37_find V (comp : V -> V -> bool) o xs hf w k v :
  swo comp -> set_is comp o xs hf w -> targ_is xs hf k v ->
  runs (t_find comp o k) w (fun it w' => w' = w /\
    ((exists u, (it, u) ∈ xs /\ equivalent comp u v) \/ (it = t_end o /\ absent comp v xs.*2))).
Proof.
  intros Hswo [t Hs]%set_is_sin Hk. pose proof (targ_rd _ _ _ _ _ _ _ _ Hs Hk) as Hrd.
  eapply find_spec; [done|exact Hs|done| |].
  - intros i a u Hi H1 H2. split; [done|]. left. exists u. split; [by eapply elem_of_list_lookup_2|done].
  - intros Hno. split; [done|]. right. split; [done|]. by apply far_absent.
Qed.
Print Assumptions C37_find.

Example C37_example :
  set_is nat_lt exO exX ∅ (tw1 []) /\
  runs (let! a := lower_bound nat_lt exO (TAVal 15) in let! b := upper_bound nat_lt exO (TAVal 15) in
        let! c := equal_range nat_lt exO (TAVal 17) in let! n := t_count nat_lt exO (TARef 5) in
        let! m := t_count nat_lt exO (TAVal 17) in let! e := lower_bound nat_lt exO (TAVal 41) in
        let! f := t_find nat_lt exO (TAVal 30) in ret (a, b, c, n, m, e, f)) (tw1 []) (fun r _ =>
    r = (5, 2, (2, 2), 1%nat, 0%nat, 1, 6)%positive).
Proof. split; [apply ex_set|]. compute_run. Qed.

(** ** C38 *)

Theorem C38_copy V (cf : cfg V) comp o other xs ys hv2 hf w :
  set_is comp o xs (hv2 ∪ hf) w -> set_own comp (t_alloc other) (t_hdr other) ys hv2 -> hv2 ##ₘ hf -> w_err w = None ->
  runs (t_copy cf o other) w (fun _ w' =>
    match w_err w' with
    | None => exists zs, zs.*2 = ys.*2 /\ set_is comp o zs (hv2 ∪ hf) w' /\ (forall a, a ∈ zs.*1 -> a ∉ ys.*1)
    | Some e => tnode_error cf e /\ set_is comp o [] (hv2 ∪ hf) w'
    end).
Proof.
  intros [t Hs]%set_is_sin Ho2 Hd He.
  assert (forall b, b ∈ t_hdr other :: ys.*1 -> is_Some ((hv2 ∪ hf) !! b)) as Hin2.
  { intros b Hb. destruct Ho2 as (_ & t2 & <- & _ & _ & _ & Hdom & _). apply Hdom in Hb. apply lookup_union_is_Some. by left. }
  eapply copy_spec; [|done|exact Hs|by apply own_there| |].
  - destruct Hs as ([_ _ _ _ Hnone] & _). intros Heq. destruct (Hin2 (t_hdr other)) as [c Hc]; [by left|].
    rewrite <-Heq in Hc. rewrite Hnone in Hc; [done|by left].
  - intros h' orc zs t' Hzs Hs'. simpl. exists zs. split; [done|]. split; [apply set_is_sin; by exists t'|].
    intros a Ha Ha2. destruct (Hin2 a) as [c Hc]; [by right|]. destruct Hs' as ([_ _ _ _ Hnone] & Hz & _).
    rewrite Hnone in Hc; [done|]. right. by rewrite Hz.
  - intros w' e Hs' He' Hne. rewrite He'. split; [done|]. apply set_is_sin. by exists Leaf.
Qed.
Print Assumptions C38_copy.

Theorem C38_self_copy V (cf : cfg V) o w : t_copy cf o o w = Done tt w.
Proof. unfold t_copy. by rewrite decide_True. Qed.
Print Assumptions C38_self_copy.

Example C38_example :
  set_is nat_lt exO exX (exH2 ∪ ∅) (tw2 []) /\ set_own nat_lt (t_alloc exO2) (t_hdr exO2) exX2 exH2 /\
  runs (do! t_copy tcD exO exO2 in let! l := t_walk exO in let! l2 := t_walk exO2 in ret (l, l2)) (tw2 []) (fun r w' =>
    w_err w' = None /\ r = ([7; 15; 50], [7; 15; 50])) /\
  runs (do! t_copy tcD exO exO2 in let! l := t_walk exO in let! l2 := t_walk exO2 in ret (l, l2)) (tw2 [EvOk 40; EvOk 1; EvOk 41; EvFail 9]) (fun r w' =>
    w_err w' = Some (EElem 9) /\ r = ([], [7; 15; 50]) /\ size (w_heap w') = 5).
Proof.
  split; [rewrite (right_id_L ∅ (∪)); apply ex_set2|]. split; [apply ex_own2|]. split; compute_run.
Qed.

(** ** C39 *)

Theorem C39_move_ctor V (comp : V -> V -> bool) p ys hf w :
  set_is comp p ys hf w ->
  runs (t_move_ctor p) w (fun o w' =>
    t_no_calls w w' /\ t_alloc o = t_alloc p /\ w_heap w !! t_hdr o = None /\
    exists hv2, set_own comp (t_alloc p) (t_hdr p) [] hv2 /\ hv2 ##ₘ hf /\ set_is comp o ys (hv2 ∪ hf) w').
Proof.
  intros [t Hs]%set_is_sin. eapply move_ctor_spec; [exact Hs|]. intros a h' Ha (hv2 & t' & Ho & Hd & Hs').
  split_and!; [done..|]. exists hv2. split_and!; [done..|]. apply set_is_sin. by exists t'.
Qed.
Print Assumptions C39_move_ctor.

Theorem C39_clear V (comp : V -> V -> bool) o xs hf w :
  set_is comp o xs hf w ->
  runs (t_clear o) w (fun _ w' => t_no_calls w w' /\ set_is comp o [] hf w').
Proof.
  intros [t Hs]%set_is_sin. eapply clear_spec; [exact Hs|]. intros h' Hs'. split; [done|]. apply set_is_sin. by exists Leaf.
Qed.
Print Assumptions C39_clear.

Theorem C39_destroy V (comp : V -> V -> bool) o xs hf w :
  set_is comp o xs hf w ->
  runs (t_destroy o) w (fun _ w' => t_no_calls w w' /\ w_heap w' = hf).
Proof. intros [t Hs]%set_is_sin. eapply destroy_spec; [exact Hs|]. done. Qed.
Print Assumptions C39_destroy.

Theorem C39_move_assign V (comp : V -> V -> bool) o p xs ys hv2 hf w :
  t_alloc o = t_alloc p ->
  set_is comp o xs (hv2 ∪ hf) w -> set_own comp (t_alloc p) (t_hdr p) ys hv2 -> hv2 ##ₘ hf ->
  runs (t_move_assign o p) w (fun _ w' =>
    t_no_calls w w' /\ exists hv2', set_own comp (t_alloc p) (t_hdr p) [] hv2' /\ hv2' ##ₘ hf /\ set_is comp o ys (hv2' ∪ hf) w').
Proof.
  intros Hal [t Hs]%set_is_sin Ho2 Hd. eapply move_assign_spec; [done|by exists hv2, t|].
  intros h' (hv2' & t' & Ho' & Hd' & Hs'). split; [done|]. exists hv2'. split_and!; [done..|]. apply set_is_sin. by exists t'.
Qed.
Print Assumptions C39_move_assign.

Theorem C39_swap V (comp : V -> V -> bool) o p xs ys hv2 hf w :
  t_alloc o = t_alloc p ->
  set_is comp o xs (hv2 ∪ hf) w -> set_own comp (t_alloc p) (t_hdr p) ys hv2 -> hv2 ##ₘ hf ->
  runs (t_swap o p) w (fun _ w' =>
    t_no_calls w w' /\ exists hv2', set_own comp (t_alloc p) (t_hdr p) xs hv2' /\ hv2' ##ₘ hf /\ set_is comp o ys (hv2' ∪ hf) w').
Proof.
  intros Hal [t Hs]%set_is_sin Ho2 Hd. eapply swap_spec; [done|by exists hv2, t|].
  intros h' (hv2' & t' & Ho' & Hd' & Hs'). split; [done|]. exists hv2'. split_and!; [done..|]. apply set_is_sin. by exists t'.
Qed.
Print Assumptions C39_swap.

Example C39_example :
  set_is nat_lt exO exX (exH2 ∪ ∅) (tw2 []) /\ set_own nat_lt (t_alloc exO2) (t_hdr exO2) exX2 exH2 /\
  runs (let! n := t_move_ctor exO in let! l := t_walk n in let! k := t_walk exO in
        do! t_swap n exO2 in let! l2 := t_walk n in
        do! t_move_assign exO exO2 in let! l3 := t_walk exO in let! l4 := t_walk exO2 in
        do! t_destroy n in do! t_destroy exO in do! t_destroy exO2 in
        ret [l; k; l2; l3; l4]) (tw2 []) (fun r w' =>
    r = [[5; 10; 15; 20; 30; 40]; []; [7; 15; 50]; [5; 10; 15; 20; 30; 40]; []] /\ w_heap w' = ∅).
Proof.
  split; [rewrite (right_id_L ∅ (∪)); apply ex_set2|]. split; [apply ex_own2|]. compute_run.
Qed.

(** ** C40 *)

Lemma same_place {V} (comp : V -> V -> bool) (a : addr) (v : V) pre post pre' post' :
  swo comp -> pre ++ post = pre' ++ post' -> ascending comp (pre ++ (a, v) :: post).*2 -> ascending comp (pre' ++ (a, v) :: post').*2 ->
  pre = pre' /\ post = post'.
Proof.
  intros Hswo Heq H1%asc_ascending H2%asc_ascending.
  apply asc_app in H1 as (_ & [Hb1 _] & Ha1). apply asc_app in H2 as (_ & [Hb2 _] & Ha2).
  assert (forall x y : V, comp x y = true -> comp y x = true -> False) as Hasym.
  { intros x y Hxy Hyx. pose proof (comp_asym comp Hswo _ _ Hxy). congruence. }
  apply app_eq_inv in Heq as [(k & -> & ->)|(k & -> & ->)].
  - destruct k as [|p k]; [by rewrite app_nil_r|]. exfalso. apply (Hasym p.2 v).
    + apply (Ha1 p (a, v)); [apply elem_of_app; right; left|left].
    + apply (Hb2 p). left.
  - destruct k as [|p k]; [by rewrite app_nil_r|]. exfalso. apply (Hasym p.2 v).
    + apply (Ha2 p (a, v)); [apply elem_of_app; right; left|left].
    + apply (Hb1 p). left.
Qed.
Lemma same_elem {V} (comp : V -> V -> bool) (xs : list (addr * V)) v i a u j b u2 :
  swo comp -> ascending comp xs.*2 -> xs !! i = Some (a, u) -> xs !! j = Some (b, u2) ->
  equivalent comp u v -> equivalent comp u2 v -> a = b.
Proof.
  intros Hswo Ha Hi Hj Hu Hu2. assert (equivalent comp u u2) as [H1 H2].
  { eapply equivalent_trans; [done|exact Hu|by apply equivalent_sym]. }
  destruct (decide (i = j)) as [->|Hne]; [by simplify_eq|]. exfalso. destruct (decide (i < j)).
  - rewrite (Ha i j u u2) in H1; [done|done|by rewrite list_lookup_fmap, Hi|by rewrite list_lookup_fmap, Hj].
  - rewrite (Ha j i u2 u) in H2; [done|lia|by rewrite list_lookup_fmap, Hj|by rewrite list_lookup_fmap, Hi].
Qed.

(** Whatever the hint: the hinted and the plain insertion, run from the same
    state, report the same error, return the same iterator and leave the same
    elements in the same nodes. *)
Theorem C40_hint V (cf : cfg V) comp o xs hf w x v i :
  swo comp -> set_is comp o xs hf w -> w_err w = None -> targ_is xs hf x v ->
  runs (insert_unique_at cf comp o (tpos (t_hdr o) xs i) x) w (fun it w1 =>
    runs (insert_unique cf comp o x) w (fun r w2 =>
      w_err w1 = w_err w2 /\ it = r.1 /\ exists ys, set_is comp o ys hf w1 /\ set_is comp o ys hf w2)).
Proof.
  intros Hswo [t Hs]%set_is_sin He Hx. pose proof (targ_rd _ _ _ _ _ _ _ _ Hs Hx) as Hrd.
  pose proof Hs as (_ & _ & _ & Hasc%asc_ascending).
  eapply insert_at_spec; [done|exact Hs|done|done| | |].
  - intros a pre post h' t' orc Hxs Ha Hs' Hmk. eapply insert_unique_spec; [done|exact Hs|done|done| | |].
    + intros a2 pre2 post2 h2 t2 orc2 Hxs2 Ha2 Hs2 Hmk2. rewrite Hmk in Hmk2. simplify_eq/=. split_and!; [done..|].
      pose proof Hs' as (_ & _ & _ & A1%asc_ascending). pose proof Hs2 as (_ & _ & _ & A2%asc_ascending).
      destruct (same_place comp _ _ _ _ _ _ Hswo Hxs2 A1 A2) as [-> ->].
      eexists. split; apply set_is_sin; [by exists t'|by exists t2].
    + intros j b u Hj H1 H2. exfalso. subst xs. pose proof Hs' as (_ & _ & _ & A1).
      eapply (asc_absent comp pre a v post A1 u); [|done]. apply elem_of_list_fmap. exists (b, u).
      split; [done|by eapply elem_of_list_lookup_2].
    + intros w2 e _ _ _ _ Hmk2. rewrite Hmk in Hmk2. done.
  - intros j b u Hj H1 H2. eapply insert_unique_spec; [done|exact Hs|done|done| | |].
    + intros a2 pre2 post2 h2 t2 orc2 Hxs2 Ha2 Hs2 Hmk2. exfalso. subst xs. pose proof Hs2 as (_ & _ & _ & A1).
      eapply (asc_absent comp pre2 a2 v post2 A1 u); [|done]. apply elem_of_list_fmap. exists (b, u).
      split; [done|by eapply elem_of_list_lookup_2].
    + intros j' b' u' Hj' H1' H2'. split; [done|]. split; [by eapply (same_elem comp xs v j b u j' b' u')|].
      exists xs. split; apply set_is_sin; by exists t.
    + intros w2 e _ _ _ Hno _. exfalso. destruct (Hno (b, u)) as [?|?]; [by eapply elem_of_list_lookup_2|simpl in *; congruence..].
  - intros w1 e Hw1 He1 Hne Hno Hmk. eapply insert_unique_spec; [done|exact Hs|done|done| | |].
    + intros a2 pre2 post2 h2 t2 orc2 Hxs2 Ha2 Hs2 Hmk2. rewrite Hmk in Hmk2. done.
    + intros j b u Hj H1 H2. exfalso. destruct (Hno (b, u)) as [?|?]; [by eapply elem_of_list_lookup_2|simpl in *; congruence..].
    + intros w2 e2 Hw2 He2 _ _ Hmk2. rewrite Hmk in Hmk2. simplify_eq. split_and!; [done..|].
      exists xs. split; apply set_is_sin; exists t; by rewrite Hw1.
Qed.
Print Assumptions C40_hint.

(** the hint before, at, and after the right place, and end() *)
Example C40_example :
  set_is nat_lt exO exX ∅ (tw1 [EvOk 50]) /\ targ_is exX ∅ (TAVal 17) 17 /\
  forall i, i < 8 ->
    runs (let! it := insert_unique_at tcD nat_lt exO (tpos 1 exX i) (TAVal 17) in let! l := t_walk exO in ret (it, l)) (tw1 [EvOk 50]) (fun r _ =>
      r = (50%positive, [5; 10; 15; 17; 20; 30; 40])).
Proof.
  split; [apply ex_set|]. split; [done|]. intros i Hi. do 8 (destruct i as [|i]; [compute_run|]). lia.
Qed.
