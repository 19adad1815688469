(** * Histories on sets, as a function of the failures of the environment *)
From Verif Require Export RbDet ListDetHist.
From Coq Require Import Sorting.Sorted.
From stdpp Require Import sorting.
From Verif Require Import SameSpec.

Section det.
  Context {V : Type} {LL : limit} (cf : cfg V) (comp : V -> V -> bool).
  Notation H := (gmap addr (tcell V)).
  Notation W := (world (tcell V)).
  Notation E := (addr * V)%type.
  Implicit Types hv hf hr : H.
  Implicit Types w : W.
  Implicit Types xs ys : list E.
  Implicit Types xss : list (list E).
  Implicit Types ls : list (list V).
  Notation al := (c_dflt cf).
  Notation sin := (sin comp).
  Notation set h := (TSet al h).
  Notation objs hds := (TSet al <$> hds).
  Notation srow := (srow cf comp).
  Notation put := (put comp).
  Notation absent := (absent comp).
  Notation asc l := (ascending comp l).

  (** The values [vs] are added to [l] one by one. *)
  Fixpoint adds_det (vs : list V) (l : list V) (o : list event) (e : option error) (l' : list V) (o' : list event) : Prop :=
    match vs with
    | [] => e = None /\ l' = l /\ o' = o
    | v :: vs =>
        (exists u, put v l false u l /\ adds_det vs l o e l' o') \/
        (absent v l /\
         match one_node cf o with
         | (Some e1, o1) => e = Some e1 /\ l' = l /\ o' = o1
         | (None, o1) => exists l1, put v l true v l1 /\ asc l1 /\ adds_det vs l1 o1 e l' o'
         end)
    end.

  Definition sop_quiet (op : sop V) : bool :=
    match op with
    | SoInsert _ _ | SoInsertHint _ _ _ | SoInsertVals _ _ | SoEmplace _ _ | SoEmplaceHint _ _ _ | SoCopy _ _ => false
    | _ => true
    end.
  (** What [sop_spec] leaves open. *)
  Definition sop_rest (op : sop V) ls (o : list event) (e : option error) (a : sans V) ls' (o' : list event) : Prop :=
    match op with
    | SoInsert i x | SoInsertHint i _ x =>
        match ls !! i, hval_of ls x with
        | Some l, Some v =>
            ((exists u, u ∈ l /\ equivalent comp u v) /\ e = None /\ o' = o) \/
            (absent v l /\ (e, o') = one_node cf o /\ (e <> None -> a = match op with SoInsert _ _ => AnsPair None true | _ => AnsIter None end))
        | _, _ => a = AnsNone /\ o' = o
        end
    | SoEmplace i x | SoEmplaceHint i _ x =>
        match ls !! i, hval_of ls x with
        | Some l, Some v =>
            (e, o') = one_node cf o /\ (e <> None -> a = match op with SoEmplace _ _ => AnsPair None false | _ => AnsIter None end)
        | _, _ => a = AnsNone /\ o' = o
        end
    | SoInsertVals i vs =>
        a = AnsNone /\
        match ls !! i with
        | Some l => exists l', adds_det vs l o e l' o' /\ ls' = <[ i := l' ]> ls
        | None => o' = o
        end
    | SoEraseKey i x | SoFind i x | SoLower i x | SoUpper i x | SoCount i x =>
        o' = o /\ match ls !! i, hval_of ls x with Some _, Some _ => True | _, _ => a = AnsNone end
    | SoErase i p =>
        o' = o /\ match ls !! i with Some l => length l <= p -> a = AnsNone | None => a = AnsNone end
    | SoEraseRange i _ _ => o' = o /\ match ls !! i with Some l => True | None => a = AnsNone end
    | SoClear _ | SoMove _ _ | SoSwap _ _ => o' = o /\ a = AnsNone
    | SoCopy i j =>
        a = AnsNone /\
        match ls !! i, ls !! j with
        | Some _, Some r => if decide (i = j) then o' = o else exists k, n_nodes cf (length r) o = (k, e, o')
        | _, _ => o' = o
        end
    end.
  Definition sop_det op ls o e a ls' o' : Prop :=
    sop_spec comp op ls e a ls' /\ Forall (fun l => asc l) ls' /\ sop_rest op ls o e a ls' o'.
  Fixpoint sops_det (ops : list (sop V)) ls o (rs : list (option error * sans V)) ls' : Prop :=
    match ops, rs with
    | [], [] => ls' = ls
    | op :: ops, (e, a) :: rs => exists ls1 o1, sop_det op ls o e a ls1 o1 /\ sops_det ops ls1 o1 rs ls'
    | _, _ => False
    end.

  (** ** Uniqueness *)

  Lemma asc_unique l1 l2 : swo comp -> asc l1 -> asc l2 -> l1 ≡ₚ l2 -> l1 = l2.
  Proof.
    intros (Hirr & Htr & _) H1 H2 Hp.
    assert (Hss : forall l : list V, asc l -> StronglySorted (fun x y => comp x y = true) l).
    { clear. induction l as [|x l IH]; intros Ha; [constructor|]. constructor.
      - apply IH. intros i j u v Hij Hi Hj. apply (Ha (S i) (S j)); [lia|done..].
      - apply Forall_forall. intros y [j Hj]%elem_of_list_lookup. by apply (Ha 0 (S j) x y); [lia|..]. }
    assert (AntiSymm (=) (fun x y => comp x y = true)).
    { intros x y Hxy Hyx. pose proof (Htr _ _ _ Hxy Hyx) as Hc. rewrite Hirr in Hc. done. }
    apply (StronglySorted_unique (fun x y => comp x y = true)); [by apply Hss..|done].
  Qed.
  Lemma equivalent_unique l u u' v : swo comp -> asc l -> u ∈ l -> equivalent comp u v -> u' ∈ l -> equivalent comp u' v -> u = u'.
  Proof.
    intros Hw Ha [i Hi]%elem_of_list_lookup [H1 H2] [j Hj]%elem_of_list_lookup [H3 H4].
    assert (Hneg : forall x y, comp x v = false -> comp v x = false -> comp y v = false -> comp v y = false -> comp x y = true -> False).
    { intros x y ? ? ? ? Hxy. destruct Hw as (_ & _ & Hn). destruct (Hn x y v Hxy); congruence. }
    destruct (Nat.lt_trichotomy i j) as [Hij|[->|Hij]]; [|congruence|].
    - exfalso. eapply (Hneg u u'); [done..|]. by eapply (Ha i j).
    - exfalso. eapply (Hneg u' u); [done..|]. by eapply (Ha j i).
  Qed.
  Lemma put_unique v l b u l1 b' u' l2 : swo comp -> asc l -> asc l1 -> asc l2 -> put v l b u l1 -> put v l b' u' l2 ->
    b = b' /\ u = u' /\ l1 = l2.
  Proof.
    intros Hw Ha H1 H2. destruct b, b'; simpl.
    - intros (-> & Hp1 & _) (-> & Hp2 & _). split_and!; [done..|]. apply asc_unique; [done..|]. by rewrite Hp1, Hp2.
    - intros (_ & _ & Hab) (Hu & He & _). by destruct (Hab _ Hu).
    - intros (Hu & He & _) (_ & _ & Hab). by destruct (Hab _ Hu).
    - intros (Hu & He & ->) (Hu' & He' & ->). split; [done|]. split; [by eapply equivalent_unique|done].
  Qed.
  Lemma adds_det_unique vs l o1 o2 e1 e2 l1 l2 o1' o2' : swo comp -> asc l -> same_failures o1 o2 ->
    adds_det vs l o1 e1 l1 o1' -> adds_det vs l o2 e2 l2 o2' -> e1 = e2 /\ l1 = l2 /\ same_failures o1' o2'.
  Proof.
    intros Hw. revert l o1 o2. induction vs as [|v vs IH]; intros l o1 o2 Ha Hs; simpl.
    - by intros (-> & -> & ->) (-> & -> & ->).
    - destruct (one_node_same cf _ _ Hs) as [H1 H2].
      intros [(u & (Hu & Hue & _) & Hd)|[Hab Hd]] [(u' & (Hu' & Hue' & _) & Hd')|[Hab' Hd']].
      + eapply IH; [exact Ha|exact Hs|exact Hd|exact Hd'].
      + by destruct (Hab' _ Hu).
      + by destruct (Hab _ Hu').
      + destruct (one_node cf o1) as [[x|] p1], (one_node cf o2) as [[x'|] p2]; simpl in *; simplify_eq.
        * destruct Hd as (-> & -> & ->), Hd' as (-> & -> & ->). done.
        * destruct Hd as (m1 & Hp1 & Ha1 & Hd), Hd' as (m2 & Hp2 & Ha2 & Hd').
          destruct (put_unique v l true v m1 true v m2 Hw Ha Ha1 Ha2 Hp1 Hp2) as (_ & _ & <-). eapply IH; [exact Ha1|exact H2|exact Hd|exact Hd'].
  Qed.
  Lemma found_unique v l r r' : swo comp -> asc l -> found comp v l r -> found comp v l r' -> r = r'.
  Proof.
    intros Hw Ha. destruct r as [u|], r' as [u'|]; simpl; [|by intros [Hu He] Hab; destruct (Hab _ Hu)|by intros Hab [Hu He]; destruct (Hab _ Hu)|done].
    intros [Hu He] [Hu' He']. f_equal. by eapply equivalent_unique.
  Qed.
  Lemma insert_asc ls i l l' : Forall (fun l => asc l) (<[ i := l' ]> ls) -> ls !! i = Some l -> asc l'.
  Proof. intros Hf Hi. eapply Forall_lookup_1; [exact Hf|]. apply list_lookup_insert. by eapply lookup_lt_Some. Qed.

  Lemma sop_det_unique op ls o1 o2 e1 e2 a1 a2 l1 l2 o1' o2' : swo comp -> Forall (fun l => asc l) ls -> same_failures o1 o2 ->
    sop_det op ls o1 e1 a1 l1 o1' -> sop_det op ls o2 e2 a2 l2 o2' -> e1 = e2 /\ a1 = a2 /\ l1 = l2 /\ same_failures o1' o2'.
  Proof.
    intros Hw Hls Hs (S1 & F1 & R1) (S2 & F2 & R2).
    destruct (one_node_same cf _ _ Hs) as [H1 H2].
    assert (Hput : forall i l v (ans : V -> bool -> sans V), ls !! i = Some l ->
      (exists b u l', a1 = ans u b /\ put v l b u l' /\ l1 = <[ i := l' ]> ls) ->
      (exists b u l', a2 = ans u b /\ put v l b u l' /\ l2 = <[ i := l' ]> ls) -> a1 = a2 /\ l1 = l2).
    { intros i l v ans Hi (b & u & m & -> & Hp & ->) (b' & u' & m' & -> & Hp' & ->).
      destruct (put_unique v l b u m b' u' m') as (-> & -> & ->); try done.
      - by eapply (Forall_lookup_1 _ ls).
      - by eapply insert_asc.
      - by eapply insert_asc. }
    assert (Hput' : forall i l v (ans : V -> sans V), ls !! i = Some l ->
      (exists b u l', a1 = ans u /\ put v l b u l' /\ l1 = <[ i := l' ]> ls) ->
      (exists b u l', a2 = ans u /\ put v l b u l' /\ l2 = <[ i := l' ]> ls) -> a1 = a2 /\ l1 = l2).
    { intros i l v ans Hi. apply (Hput i l v (fun u _ => ans u) Hi). }
    destruct op as [i x|i p x|i vs|i x|i p x|i x|i p|i p n|i|i j|i j|i j|i x|i x|i x|i x]; simpl in S1, S2, R1, R2.
    - destruct (ls !! i) as [l|] eqn:Ei; [|naive_solver]. destruct (hval_of ls x) as [v|] eqn:Ex; [|naive_solver].
      destruct R1 as [((u & Hu & Hue) & -> & ->)|(Hab & Ho1 & Hf1)], R2 as [((u' & Hu' & Hue') & -> & ->)|(Hab' & Ho2 & Hf2)].
      + destruct (Hput i l v (fun u b => AnsPair (Some u) b) Ei S1 S2). done.
      + by destruct (Hab' _ Hu).
      + by destruct (Hab _ Hu').
      + rewrite <-Ho1, <-Ho2 in H1, H2. simpl in H1, H2. subst e2. split; [done|]. destruct e1 as [e|].
        * rewrite Hf1, Hf2 by done. subst. done.
        * destruct (Hput i l v (fun u b => AnsPair (Some u) b) Ei S1 S2). done.
    - destruct (ls !! i) as [l|] eqn:Ei; [|naive_solver]. destruct (hval_of ls x) as [v|] eqn:Ex; [|naive_solver].
      destruct R1 as [((u & Hu & Hue) & -> & ->)|(Hab & Ho1 & Hf1)], R2 as [((u' & Hu' & Hue') & -> & ->)|(Hab' & Ho2 & Hf2)].
      + destruct (Hput' i l v (fun u => AnsIter (Some u)) Ei S1 S2). done.
      + by destruct (Hab' _ Hu).
      + by destruct (Hab _ Hu').
      + rewrite <-Ho1, <-Ho2 in H1, H2. simpl in H1, H2. subst e2. split; [done|]. destruct e1 as [e|].
        * destruct S1 as [-> ->], S2 as [-> ->]. done.
        * destruct (Hput' i l v (fun u => AnsIter (Some u)) Ei S1 S2). done.
    - destruct R1 as [-> R1], R2 as [-> R2]. destruct (ls !! i) as [l|] eqn:Ei; [|naive_solver].
      destruct R1 as (m1 & R1 & ->), R2 as (m2 & R2 & ->).
      destruct (adds_det_unique vs l o1 o2 e1 e2 m1 m2 o1' o2') as (-> & -> & ?); try done. by eapply (Forall_lookup_1 _ ls).
    - destruct (ls !! i) as [l|] eqn:Ei; [|naive_solver]. destruct (hval_of ls x) as [v|] eqn:Ex; [|naive_solver].
      destruct R1 as (Ho1 & Hf1), R2 as (Ho2 & Hf2).
      rewrite <-Ho1, <-Ho2 in H1, H2. simpl in H1, H2. subst e2. split; [done|]. destruct e1 as [e|].
      + rewrite Hf1, Hf2 by done. subst. done.
      + destruct (Hput i l v (fun u b => AnsPair (Some u) b) Ei S1 S2). done.
    - destruct (ls !! i) as [l|] eqn:Ei; [|naive_solver]. destruct (hval_of ls x) as [v|] eqn:Ex; [|naive_solver].
      destruct R1 as (Ho1 & Hf1), R2 as (Ho2 & Hf2).
      rewrite <-Ho1, <-Ho2 in H1, H2. simpl in H1, H2. subst e2. split; [done|]. destruct e1 as [e|].
      + destruct S1 as [-> ->], S2 as [-> ->]. done.
      + destruct (Hput' i l v (fun u => AnsIter (Some u)) Ei S1 S2). done.
    - destruct S1 as [-> S1], S2 as [-> S2], R1 as [-> R1], R2 as [-> R2]. split; [done|].
      destruct (ls !! i) as [l|] eqn:Ei; [|naive_solver]. destruct (hval_of ls x) as [v|] eqn:Ex; [|naive_solver].
      assert (Hl : asc l) by (by eapply (Forall_lookup_1 _ ls)).
      destruct S1 as [(Hab & -> & ->)|(u & m & Hu & Hp & -> & ->)], S2 as [(Hab' & -> & ->)|(u' & m' & Hu' & Hp' & -> & ->)].
      + done.
      + destruct (Hab u'); [|done]. rewrite Hp'. left.
      + destruct (Hab' u); [|done]. rewrite Hp. left.
      + assert (u = u') as <-. { eapply (equivalent_unique l); [done|done|by rewrite Hp; left|done|by rewrite Hp'; left|done]. }
        assert (m = m') as <-; [|done]. apply asc_unique; [done|by eapply insert_asc|by eapply insert_asc|].
        apply (Permutation_cons_inv (a := u)). by rewrite <-Hp, <-Hp'.
    - destruct S1 as [-> S1], S2 as [-> S2], R1 as [-> R1], R2 as [-> R2]. split; [done|].
      destruct (ls !! i) as [l|] eqn:Ei; [|naive_solver]. destruct S1 as [-> S1], S2 as [-> S2].
      destruct (decide (p < length l)); [rewrite S1, S2 by done; done|]. rewrite R1, R2 by lia. done.
    - destruct S1 as [-> S1], S2 as [-> S2], R1 as [-> R1], R2 as [-> R2]. split; [done|].
      destruct (ls !! i) as [l|] eqn:Ei; naive_solver.
    - naive_solver.
    - destruct R1 as [-> R1], R2 as [-> R2].
      destruct (ls !! i) as [l|] eqn:Ei; [|naive_solver]. destruct (ls !! j) as [r|] eqn:Ej; [|naive_solver].
      destruct (decide (i = j)); [naive_solver|]. destruct R1 as [k1 R1], R2 as [k2 R2].
      destruct (n_nodes_same cf (length r) _ _ Hs) as [H3 H4]. rewrite R1, R2 in H3, H4. simpl in *. simplify_eq. done.
    - destruct S1 as [-> S1], S2 as [-> S2], R1 as [-> ->], R2 as [-> ->]. split_and!; try done.
      destruct (ls !! i), (ls !! j); congruence.
    - destruct S1 as [-> S1], S2 as [-> S2], R1 as [-> ->], R2 as [-> ->]. split_and!; try done.
      destruct (ls !! i), (ls !! j); congruence.
    - destruct S1 as (-> & -> & S1), S2 as (-> & -> & S2), R1 as [-> R1], R2 as [-> R2].
      destruct (ls !! i) as [l|] eqn:Ei; [|naive_solver]. destruct (hval_of ls x) as [v|] eqn:Ex; [|naive_solver].
      destruct S1 as (r & -> & Hr), S2 as (r' & -> & Hr'). split_and!; try done. f_equal. eapply found_unique; [done| |done..]. by eapply (Forall_lookup_1 _ ls).
    - destruct S1 as (-> & -> & S1), S2 as (-> & -> & S2), R1 as [-> R1], R2 as [-> R2]. split_and!; try done.
      destruct (ls !! i), (hval_of ls x); congruence.
    - destruct S1 as (-> & -> & S1), S2 as (-> & -> & S2), R1 as [-> R1], R2 as [-> R2]. split_and!; try done.
      destruct (ls !! i), (hval_of ls x); congruence.
    - destruct S1 as (-> & -> & S1), S2 as (-> & -> & S2), R1 as [-> R1], R2 as [-> R2]. split_and!; try done.
      destruct (ls !! i) as [l|] eqn:Ei; [|congruence]. destruct (hval_of ls x) as [v|]; [|congruence].
      destruct S1 as [(-> & u & Hu & Hue)|[-> Hab]], S2 as [(-> & u' & Hu' & Hue')|[-> Hab']]; try done.
      + by destruct (Hab' _ Hu).
      + by destruct (Hab _ Hu').
  Qed.
  Lemma sops_det_unique ops ls o1 o2 r1 r2 l1 l2 : swo comp -> Forall (fun l => asc l) ls -> same_failures o1 o2 ->
    sops_det ops ls o1 r1 l1 -> sops_det ops ls o2 r2 l2 -> r1 = r2 /\ l1 = l2.
  Proof.
    intros Hw. revert ls o1 o2 r1 r2. induction ops as [|op ops IH]; intros ls o1 o2 [|[e a] r1] [|[e' a'] r2] Hls Hs; simpl; try done.
    - by intros -> ->.
    - intros (m1 & p1 & Hd1 & Hr1) (m2 & p2 & Hd2 & Hr2).
      destruct (sop_det_unique _ _ _ _ _ _ _ _ _ _ _ _ Hw Hls Hs Hd1 Hd2) as (<- & <- & <- & Hs').
      destruct (IH m1 p1 p2 r1 r2) as [-> ->]; try done. apply Hd1.
  Qed.

  (** ** The calls have that meaning *)

  Lemma runs_both {A} (m : M (tcell V) A) w (P Q : A -> W -> Prop) : runs m w P -> runs m w Q -> runs m w (fun a w' => P a w' /\ Q a w').
  Proof. intros (a & w' & Hr & HP) HQ. exists a, w'. split; [done|]. split; [done|]. by eapply runs_done. Qed.
  Lemma runs_fact {A} (m : M (tcell V) A) w (P Q : A -> W -> Prop) : runs m w P -> (forall a w', m w = Done a w' -> Q a w') -> runs m w Q.
  Proof. intros (a & w' & Hr & _) HQ. exists a, w'. split; [done|]. by apply HQ. Qed.

  Lemma none_set (hds : list addr) i (k : tset -> M (tcell V) (sans V)) w a w' :
    hds !! i = None -> with_set (objs hds) i k w = Done a w' -> a = AnsNone /\ w' = w.
  Proof. intros Hi. rewrite (with_set_none cf _ _ _ Hi). by intros [= <- <-]. Qed.
  Lemma srow_vals_none hds xss hv i : srow hds xss hv -> vals xss !! i = None -> hds !! i = None.
  Proof.
    intros [Hl _] Hi. rewrite vals_lookup in Hi. apply fmap_None in Hi. apply lookup_ge_None in Hi. apply lookup_ge_None. lia.
  Qed.
  Lemma none_arg hds xss hv hf i x (k : tset -> targ V -> M (tcell V) (sans V)) w a w' :
    srow hds xss hv -> heap_is w hv hf -> vals xss !! i = None \/ hval_of (vals xss) x = None ->
    with_set (objs hds) i (fun o => with_targ (objs hds) x (k o)) w = Done a w' -> a = AnsNone /\ w' = w.
  Proof.
    intros Hr Hh Hn Hd. destruct (hds !! i) as [h|] eqn:Ei; [|by eapply none_set].
    destruct Hn as [Hn|Hn]; [rewrite (srow_vals_none _ _ _ _ Hr Hn) in Ei; done|].
    rewrite (with_set_some cf _ _ _ _ Ei) in Hd. unfold with_targ in Hd. apply bind_done in Hd as (r & w1 & H1 & H2).
    assert (runs (t_get_arg (objs hds) x) w (fun r w' => r = None /\ w' = w)) as Hrun.
    { eapply t_get_arg_spec; [exact Hr|exact Hh|done|]. intros b v Hv. congruence. }
    apply (runs_done _ _ _ _ _ Hrun) in H1 as [-> ->]. by injection H2 as <- <-.
  Qed.
  Lemma t_at_elem hds xss hv hf w i x k (Q : sans V -> W -> Prop) :
    srow hds xss hv -> heap_is w hv hf ->
    (vals xss !! i = None \/ hval_of (vals xss) x = None -> Q AnsNone w) ->
    (forall h xs hr t a v, hds !! i = Some h -> vals xss !! i = Some xs.*2 -> sin (set h) xs (w_heap w) (hr ∪ hf) t ->
       hval_of (vals xss) x = Some v -> rd (w_heap w) a v -> runs (k (set h) a) w Q) ->
    runs (with_set (objs hds) i (fun o => with_targ (objs hds) x (k o))) w Q.
  Proof.
    intros Hr Hh Hn Hk. destruct (hds !! i) as [h|] eqn:Ei.
    - rewrite (with_set_some cf _ _ _ _ Ei). destruct (srow_lookup _ _ _ _ _ _ _ Hr Ei) as [xs Hxs].
      destruct (srow_at _ _ _ _ _ _ _ _ Hr Ei Hxs) as (R & HR & Ho1 & _).
      destruct (own_get _ _ _ _ _ _ _ _ Ho1 Hh) as (hr & t & _ & _ & Hs).
      unfold with_targ. rbind. eapply t_get_arg_spec; [exact Hr|exact Hh| |].
      + intros Hv. apply runs_ret. auto.
      + intros a v Hv Hrd. eapply Hk; try done. by apply vals_at.
    - rewrite (with_set_none cf _ _ _ Ei). apply runs_ret. apply Hn. left. by rewrite vals_lookup, (srow_none _ _ _ _ _ _ Hr Ei).
  Qed.

  Lemma read_end o xs hf t w : sin o xs (w_heap w) hf t -> runs (read_iter o (t_end o)) w (fun u w' => u = None /\ w' = w).
  Proof. intros Hs. unfold read_iter. rewrite decide_True by done. by apply runs_ret. Qed.

  Lemma det_insert hds xss hv hf w i x : swo comp -> srow hds xss hv -> heap_is w hv hf -> w_err w = None ->
    runs (exec_sop cf comp (SoInsert i x) (objs hds)) w (fun a w' =>
      sop_rest (SoInsert i x) (vals xss) (w_orc w) (w_err w') a (vals xss) (w_orc w')).
  Proof.
    intros Hw Hr Hh He. unfold exec_sop. eapply t_at_elem; [exact Hr|exact Hh| |].
    { simpl. intros [->| ->]; [done|]. by destruct (vals xss !! i). }
    intros h xs hr t b v Hi Hvi Hs Hv Hrd. simpl. rewrite Hvi, Hv.
    rbind. eapply insert_unique_spec; [done|exact Hs|done|done| | |].
    - intros c pre post h' t' orc -> Hc Hs' Hmk. apply tmakes_create_node in Hmk; [|done]. simpl in Hmk.
      rbind. eapply (read_iter_at comp (set h) _ _ _ (length pre)); [exact Hs'|by apply list_lookup_middle|].
      apply runs_ret. right. simpl. split; [|done]. destruct Hs' as (_ & _ & _ & A1). by eapply asc_absent.
    - intros k c u Hk H1 H2. rbind. eapply read_iter_at; [exact Hs|done|]. apply runs_ret. left. split; [|done].
      exists u. split; [|done]. apply elem_of_list_fmap. exists (c, u). split; [done|by eapply elem_of_list_lookup_2].
    - intros w' e Hw' He' Hne Hfar Hmk. apply tmakes_create_node in Hmk; [|done]. rbind. rewrite <-Hw' in Hs.
      eapply runs_mono; [by eapply read_end|]. intros u w2 [-> ->]. apply runs_ret. right. split; [by apply far_absent|done].
  Qed.
  Lemma det_insert_hint hds xss hv hf w i p x : swo comp -> srow hds xss hv -> heap_is w hv hf -> w_err w = None ->
    runs (exec_sop cf comp (SoInsertHint i p x) (objs hds)) w (fun a w' =>
      sop_rest (SoInsertHint i p x) (vals xss) (w_orc w) (w_err w') a (vals xss) (w_orc w')).
  Proof.
    intros Hw Hr Hh He. unfold exec_sop. eapply t_at_elem; [exact Hr|exact Hh| |].
    { simpl. intros [->| ->]; [done|]. by destruct (vals xss !! i). }
    intros h xs hr t b v Hi Hvi Hs Hv Hrd. simpl. rewrite Hvi, Hv.
    rbind. eapply t_iter_at_spec; [exact Hs|].
    rbind. eapply insert_at_spec; [done|exact Hs|done|done| | |].
    - intros c pre post h' t' orc -> Hc Hs' Hmk. apply tmakes_create_node in Hmk; [|done]. simpl in Hmk.
      rbind. eapply (read_iter_at comp (set h) _ _ _ (length pre)); [exact Hs'|by apply list_lookup_middle|].
      apply runs_ret. right. simpl. split; [|done]. destruct Hs' as (_ & _ & _ & A1). by eapply asc_absent.
    - intros k c u Hk H1 H2. rbind. eapply read_iter_at; [exact Hs|done|]. apply runs_ret. left. split; [|done].
      exists u. split; [|done]. apply elem_of_list_fmap. exists (c, u). split; [done|by eapply elem_of_list_lookup_2].
    - intros w' e Hw' He' Hne Hfar Hmk. apply tmakes_create_node in Hmk; [|done]. rbind. rewrite <-Hw' in Hs.
      eapply runs_mono; [by eapply read_end|]. intros u w2 [-> ->]. apply runs_ret. right. split; [by apply far_absent|done].
  Qed.
  Lemma det_emplace hds xss hv hf w i x : swo comp -> srow hds xss hv -> heap_is w hv hf -> w_err w = None ->
    runs (exec_sop cf comp (SoEmplace i x) (objs hds)) w (fun a w' =>
      sop_rest (SoEmplace i x) (vals xss) (w_orc w) (w_err w') a (vals xss) (w_orc w')).
  Proof.
    intros Hw Hr Hh He. unfold exec_sop. eapply t_at_elem; [exact Hr|exact Hh| |].
    { simpl. intros [->| ->]; [done|]. by destruct (vals xss !! i). }
    intros h xs hr t b v Hi Hvi Hs Hv Hrd. simpl. rewrite Hvi, Hv.
    apply runs_both.
    - eapply (runs_fact _ _ (fun _ _ => True)).
      + rbind. eapply emplace_spec; [done|exact Hs|done|done| | |].
        * intros c pre post h' t' orc -> Hc Hs'. rbind. eapply (read_iter_at comp (set h) _ _ _ (length pre)); [exact Hs'|by apply list_lookup_middle|]. by apply runs_ret.
        * intros k c u orc Hk H1 H2. rbind. eapply read_iter_at; [exact Hs|done|]. by apply runs_ret.
        * intros w' e Hw' He' Hne. rbind. rewrite <-Hw' in Hs. eapply runs_mono; [by eapply read_end|]. intros u w2 _. by apply runs_ret.
      + intros a w' Hd. eapply (tmakes_bind_silent cf (emplace_unique cf comp (set h) b)); [apply tmakes_emplace| |done|exact Hd]. sh.
    - rbind. eapply emplace_spec; [done|exact Hs|done|done| | |].
      + intros c pre post h' t' orc -> Hc Hs'. rbind. eapply (read_iter_at comp (set h) _ _ _ (length pre)); [exact Hs'|by apply list_lookup_middle|]. by apply runs_ret.
      + intros k c u orc Hk H1 H2. rbind. eapply read_iter_at; [exact Hs|done|]. by apply runs_ret.
      + intros w' e Hw' He' Hne. rbind. rewrite <-Hw' in Hs. eapply runs_mono; [by eapply read_end|]. intros u w2 [-> ->]. by apply runs_ret.
  Qed.
  Lemma det_emplace_hint hds xss hv hf w i p x : swo comp -> srow hds xss hv -> heap_is w hv hf -> w_err w = None ->
    runs (exec_sop cf comp (SoEmplaceHint i p x) (objs hds)) w (fun a w' =>
      sop_rest (SoEmplaceHint i p x) (vals xss) (w_orc w) (w_err w') a (vals xss) (w_orc w')).
  Proof.
    intros Hw Hr Hh He. unfold exec_sop. eapply t_at_elem; [exact Hr|exact Hh| |].
    { simpl. intros [->| ->]; [done|]. by destruct (vals xss !! i). }
    intros h xs hr t b v Hi Hvi Hs Hv Hrd. simpl. rewrite Hvi, Hv.
    rbind. eapply t_iter_at_spec; [exact Hs|]. apply runs_both.
    - eapply (runs_fact _ _ (fun _ _ => True)).
      + rbind. eapply emplace_hint_spec; [done|exact Hs|done|done| | |].
        * intros c pre post h' t' orc -> Hc Hs'. rbind. eapply (read_iter_at comp (set h) _ _ _ (length pre)); [exact Hs'|by apply list_lookup_middle|]. by apply runs_ret.
        * intros k c u orc Hk H1 H2. rbind. eapply read_iter_at; [exact Hs|done|]. by apply runs_ret.
        * intros w' e Hw' He' Hne. rbind. rewrite <-Hw' in Hs. eapply runs_mono; [by eapply read_end|]. intros u w2 _. by apply runs_ret.
      + intros a w' Hd. eapply (tmakes_bind_silent cf (emplace_hint_unique cf comp (set h) _ b)); [apply tmakes_emplace_hint| |done|exact Hd]. sh.
    - rbind. eapply emplace_hint_spec; [done|exact Hs|done|done| | |].
      + intros c pre post h' t' orc -> Hc Hs'. rbind. eapply (read_iter_at comp (set h) _ _ _ (length pre)); [exact Hs'|by apply list_lookup_middle|]. by apply runs_ret.
      + intros k c u orc Hk H1 H2. rbind. eapply read_iter_at; [exact Hs|done|]. by apply runs_ret.
      + intros w' e Hw' He' Hne. rbind. rewrite <-Hw' in Hs. eapply runs_mono; [by eapply read_end|]. intros u w2 [-> ->]. by apply runs_ret.
  Qed.

  (** a range of values *)
  Lemma adds_range vs o xs t hf w (Q : unit -> W -> Prop) :
    swo comp -> sin o xs (w_heap w) hf t -> w_err w = None ->
    (forall ys t' w', sin o ys (w_heap w') hf t' -> adds_det vs xs.*2 (w_orc w) (w_err w') ys.*2 (w_orc w') -> Q tt w') ->
    runs (insert_unique_range cf comp o (map TAVal vs)) w Q.
  Proof.
    intros Hswo. revert xs t w. induction vs as [|v vs IH]; intros xs t w Hs He HQ.
    - simpl. apply runs_ret. by apply (HQ xs t w).
    - cbn [map insert_unique_range]. rbind. replace (t_end o) with (tpos (t_hdr o) xs (length xs)) by (by apply tpos_end).
      eapply (insert_at_spec cf comp o xs t hf (length xs) (TAVal v) v); [done|done|done|done| | |].
      + intros a pre post h' t' orc -> Ha Hs' Hmk. apply tmakes_create_node in Hmk; [|done]. simpl in Hmk.
        rbind. apply runs_has_err. simpl. eapply IH; [exact Hs'|done|]. intros ys t'' w' Hs'' Hp. apply (HQ ys t'' w'); [done|].
        simpl. right. rewrite <-Hmk. pose proof Hs' as (_ & _ & _ & A1). split; [by eapply asc_absent|].
        eexists _. split; [by eapply put_new|]. split; [by apply asc_ascending|exact Hp].
      + intros i a u Hi H1 H2. rbind. apply runs_has_err. rewrite He. simpl. eapply IH; [exact Hs|done|].
        intros ys t'' w' Hs'' Hp. apply (HQ ys t'' w'); [done|]. simpl. left. exists u. split; [by eapply put_old|done].
      + intros w' e Hw' He' Hne Hfar Hmk. apply tmakes_create_node in Hmk; [|done]. rbind. apply runs_has_err. rewrite He'. simpl. apply runs_ret.
        apply (HQ xs t w'); [by rewrite Hw'|]. simpl. right. split; [by apply far_absent|]. rewrite <-Hmk, He'. done.
  Qed.
  Lemma adds_puts vs l o e l' o' : adds_det vs l o e l' o' ->
    match e with None => puts comp vs l l' | Some _ => exists n, n < length vs /\ puts comp (take n vs) l l' end.
  Proof.
    revert l o. induction vs as [|v vs IH]; intros l o; simpl.
    - by intros (-> & -> & ->).
    - intros [(u & Hp & Hd)|(Hab & Hd)].
      + specialize (IH _ _ Hd). destruct e as [e|]; [|by exists false, u, l].
        destruct IH as (n & Hn & Hps). exists (S n). split; [lia|]. simpl. by exists false, u, l.
      + destruct (one_node cf o) as [[e1|] o1].
        * destruct Hd as (-> & -> & ->). exists 0. split; [lia|done].
        * destruct Hd as (l1 & Hp & _ & Hd). specialize (IH _ _ Hd). destruct e as [e|]; [|by exists true, v, l1].
          destruct IH as (n & Hn & Hps). exists (S n). split; [lia|]. simpl. by exists true, v, l1.
  Qed.

  Definition sdet_post op hds xss hf w (a : sans V) w' : Prop := exists xss' hv', srow hds xss' hv' /\ heap_is w' hv' hf /\
    sop_spec comp op (vals xss) (w_err w') a (vals xss') /\ sop_rest op (vals xss) (w_orc w) (w_err w') a (vals xss') (w_orc w').

  Lemma det_insert_vals hds xss hv hf w i vs : swo comp -> srow hds xss hv -> heap_is w hv hf -> w_err w = None ->
    runs (exec_sop cf comp (SoInsertVals i vs) (objs hds)) w (sdet_post (SoInsertVals i vs) hds xss hf w).
  Proof.
    intros Hw Hr Hh He. unfold exec_sop. destruct (hds !! i) as [h|] eqn:Ei.
    - rewrite (with_set_some cf _ _ _ _ Ei). destruct (srow_lookup _ _ _ _ _ _ _ Hr Ei) as [xs Hxs].
      destruct (srow_at _ _ _ _ _ _ _ _ Hr Ei Hxs) as (R & HR & Ho1 & Hback).
      destruct (own_get _ _ _ _ _ _ _ _ Ho1 Hh) as (hr & t & HoR & Hd & Hs). pose proof (vals_at _ _ _ Hxs) as Hvi.
      rbind. eapply adds_range; [done|exact Hs|done|]. intros ys t' w' Hs' Hp. apply runs_ret.
      destruct (own_put _ _ _ _ _ _ _ _ _ HoR Hd Hs') as (hv' & Ho' & Hh').
      exists (<[ i := ys ]> xss), hv'. rewrite vals_insert. split_and!; [by apply Hback|done| |].
      + simpl. rewrite Hvi. pose proof (adds_puts _ _ _ _ _ _ Hp) as Hps. destruct (w_err w') as [e|].
        * destruct Hps as (n & Hn & Hps). by exists n, ys.*2.
        * by exists ys.*2.
      + simpl. rewrite Hvi. split; [done|]. by exists ys.*2.
    - rewrite (with_set_none cf _ _ _ Ei). apply runs_ret. exists xss, hv. split_and!; [done..| |].
      + simpl. by rewrite vals_lookup, (srow_none _ _ _ _ _ _ Hr Ei).
      + simpl. by rewrite vals_lookup, (srow_none _ _ _ _ _ _ Hr Ei).
  Qed.

  Lemma det_copy hds xss hv hf w i j a w' : srow hds xss hv -> heap_is w hv hf -> w_err w = None ->
    exec_sop cf comp (SoCopy i j) (objs hds) w = Done a w' ->
    sop_rest (SoCopy i j) (vals xss) (w_orc w) (w_err w') a (vals xss) (w_orc w').
  Proof.
    intros Hr Hh He. unfold exec_sop. simpl.
    destruct (hds !! i) as [h|] eqn:Ei.
    2: { rewrite (with_set_none cf _ _ _ Ei). intros [= <- <-]. by rewrite !vals_lookup, (srow_none _ _ _ _ _ _ Hr Ei). }
    rewrite (with_set_some cf _ _ _ _ Ei). destruct (srow_lookup _ _ _ _ _ _ _ Hr Ei) as [xs Hxs]. rewrite (vals_at _ _ _ Hxs).
    destruct (hds !! j) as [h2|] eqn:Ej.
    2: { rewrite (with_set_none cf _ _ _ Ej). intros [= <- <-]. by rewrite !vals_lookup, (srow_none _ _ _ _ _ _ Hr Ej). }
    rewrite (with_set_some cf _ _ _ _ Ej). destruct (srow_lookup _ _ _ _ _ _ _ Hr Ej) as [xs2 Hxs2]. rewrite (vals_at _ _ _ Hxs2).
    intros (u & w1 & H1 & [= <- <-])%bind_done. split; [done|]. destruct (decide (i = j)) as [->|Hne].
    { simplify_eq. unfold t_copy in H1. rewrite decide_True in H1 by done. by injection H1 as <- <-. }
    destruct (get2 _ _ _ _ _ _ _ _ Hne Ei Hxs Ej Hxs2) as (R & HR & HR').
    pose proof Hr as [Hl Ho]. assert (sets_own comp al ((h, xs) :: (h2, xs2) :: R) hv) as Ho2 by (eapply sown_perm; [|exact Ho]; by rewrite HR).
    destruct (own_get2 _ _ _ _ _ _ _ _ _ _ Ho2 Hh) as (hr & HoR & Hd & hv2 & t & Hov & Hd2 & Hs).
    pose proof (grows_t_copy cf _ _ _ _ _ He H1) as Hg. rewrite fmap_length.
    apply (grew_asked cf (length xs2) _ _ Hg).
    assert (runs (t_copy cf (set h) (set h2)) w (fun _ w' => asked (length xs2) w w')) as Hrun; [|by apply (runs_done _ _ _ _ _ Hrun) in H1].
    eapply copy_spec_asks; [|done|exact Hs|by apply own_there| |].
    - destruct Hs as ([_ _ _ _ Hnone] & _). simpl. intros ->. destruct Hov as (_ & t2 & _ & Hh2 & _).
      specialize (Hnone h2). simpl in Hnone. rewrite (lookup_union_Some_l _ _ _ _ Hh2) in Hnone. discriminate Hnone. by left.
    - intros h' orc zs t' Hzs Hs'. left. simpl. split; [done|]. lia.
    - by intros.
  Qed.

  Lemma squiet_silent op os : sop_quiet op = true -> silent (exec_sop cf comp op os).
  Proof. destruct op; simpl; try done; intros _; unfold exec_sop, with_set, with_targ; sh. Qed.

  Lemma det_quiet op hds xss hv hf w a w' : sop_quiet op = true -> srow hds xss hv -> heap_is w hv hf ->
    exec_sop cf comp op (objs hds) w = Done a w' -> forall ls', sop_rest op (vals xss) (w_orc w) (w_err w') a ls' (w_orc w').
  Proof.
    intros Hq Hr Hh Hd ls'. pose proof (squiet_silent _ _ Hq _ _ _ Hd) as (Ho & _). rewrite Ho.
    assert (Harg : forall i x (k : tset -> targ V -> M (tcell V) (sans V)),
      with_set (objs hds) i (fun o => with_targ (objs hds) x (k o)) w = Done a w' ->
      match vals xss !! i, hval_of (vals xss) x with Some _, Some _ => True | _, _ => a = AnsNone end).
    { intros i x k Hk. destruct (vals xss !! i) as [l|] eqn:Ei; [destruct (hval_of (vals xss) x) as [v|] eqn:Ex; [done|]|];
        eapply none_arg; try exact Hk; try done; auto. }
    unfold exec_sop in Hd.
    destruct op as [i x|i p x|i vs|i x|i p x|i x|i p|i p n|i|i j|i j|i j|i x|i x|i x|i x]; try done; simpl; (split; [done|]); try (eapply Harg; exact Hd).
    - destruct (vals xss !! i) as [l|] eqn:Ei; [|by eapply none_set; [|exact Hd]; eapply srow_vals_none].
      intros Hp. destruct (hds !! i) as [h|] eqn:Eh; [|by eapply none_set; [|exact Hd]].
      rewrite (with_set_some cf _ _ _ _ Eh) in Hd. destruct (srow_lookup _ _ _ _ _ _ _ Hr Eh) as [xs Hxs].
      rewrite (vals_at _ _ _ Hxs) in Ei. simplify_eq. rewrite fmap_length in Hp.
      destruct (srow_at _ _ _ _ _ _ _ _ Hr Eh Hxs) as (R & HR & Ho1 & _).
      destruct (own_get _ _ _ _ _ _ _ _ Ho1 Hh) as (hr & t & _ & _ & Hs).
      apply bind_done in Hd as (pos & w1 & H1 & H2).
      assert (runs (t_iter_at (set h) p) w (fun r _ => r = t_end (set h))) as Hrun.
      { eapply t_iter_at_spec; [exact Hs|]. by rewrite tpos_end by lia. }
      apply (runs_done _ _ _ _ _ Hrun) in H1 as ->. rewrite decide_True in H2 by done. by injection H2 as <- <-.
    - destruct (vals xss !! i) as [l|] eqn:Ei; [done|]. eapply none_set; [|exact Hd]. by eapply srow_vals_none.
    - unfold with_set in Hd. destruct (objs hds !! i); [|by injection Hd]. apply bind_done in Hd as (? & ? & _ & Hd). by injection Hd.
    - unfold with_set in Hd. destruct (objs hds !! i); [|by injection Hd]. destruct (objs hds !! j); [|by injection Hd]. apply bind_done in Hd as (? & ? & _ & Hd). by injection Hd.
    - unfold with_set in Hd. destruct (objs hds !! i); [|by injection Hd]. destruct (objs hds !! j); [|by injection Hd]. apply bind_done in Hd as (? & ? & _ & Hd). by injection Hd.
  Qed.

  Lemma srow_asc hds xss hv : srow hds xss hv -> Forall (fun l => asc l) (vals xss).
  Proof.
    intros Hr. apply Forall_lookup_2. intros i l Hl. rewrite vals_lookup in Hl. destruct (xss !! i) as [xs|] eqn:Ex; simplify_eq/=.
    destruct (hds !! i) as [h|] eqn:Eh; [|by rewrite (srow_none _ _ _ _ _ _ Hr Eh) in Ex].
    destruct (srow_at _ _ _ _ _ _ _ _ Hr Eh Ex) as (R & _ & (h1 & h2 & _ & _ & Ho & _) & _). apply Ho.
  Qed.

  Lemma det_exec_sop op hds xss hv hf w : swo comp -> srow hds xss hv -> heap_is w hv hf -> w_err w = None ->
    runs (exec_sop cf comp op (objs hds)) w (sdet_post op hds xss hf w).
  Proof.
    intros Hw Hr Hh He.
    assert (Hgen : runs (exec_sop cf comp op (objs hds)) w (fun a w' => forall ls', sop_rest op (vals xss) (w_orc w) (w_err w') a ls' (w_orc w')) ->
      runs (exec_sop cf comp op (objs hds)) w (sdet_post op hds xss hf w)).
    { intros Hrest. eapply runs_mono; [apply runs_both; [by eapply runs_exec_sop|exact Hrest]|].
      intros a w' [(xss' & hv' & Hr' & Hh' & Hs & _) Hre]. exists xss', hv'. by split_and!. }
    destruct (sop_quiet op) eqn:Eq.
    - apply Hgen. eapply runs_fact; [by eapply runs_exec_sop|]. intros a w' Hd ls'. by eapply det_quiet.
    - destruct op as [i x|i p x|i vs|i x|i p x|i x|i p|i p n|i|i j|i j|i j|i x|i x|i x|i x]; try done.
      + apply Hgen. eapply runs_mono; [by eapply det_insert|]. intros a w' Hre ls'. exact Hre.
      + apply Hgen. eapply runs_mono; [by eapply det_insert_hint|]. intros a w' Hre ls'. exact Hre.
      + by eapply det_insert_vals.
      + apply Hgen. eapply runs_mono; [by eapply det_emplace|]. intros a w' Hre ls'. exact Hre.
      + apply Hgen. eapply runs_mono; [by eapply det_emplace_hint|]. intros a w' Hre ls'. exact Hre.
      + apply Hgen. eapply runs_fact; [by eapply runs_exec_sop|]. intros a w' Hd ls'. exact (det_copy hds xss hv hf w i j a w' Hr Hh He Hd).
  Qed.
  Lemma det_exec_sops ops hds xss hv hf w (Q : _ -> W -> Prop) :
    swo comp -> srow hds xss hv -> heap_is w hv hf ->
    (forall rs xss' hv' w', srow hds xss' hv' -> heap_is w' hv' hf -> sops_det ops (vals xss) (w_orc w) rs (vals xss') -> Q rs w') ->
    runs (exec_sops cf comp ops (objs hds)) w Q.
  Proof.
    intros Hswo. revert xss hv w Q. induction ops as [|op ops IH]; intros xss hv w Q Hr Hh HQ; simpl.
    - apply runs_ret. by eapply HQ.
    - rbind. apply runs_put_err. rbind. eapply runs_mono; [eapply (det_exec_sop op); [done|exact Hr| |]; [exact Hh|done]|].
      intros a w1 (xss1 & hv1 & Hr1 & Hh1 & Hs & Hre). rbind. apply runs_get_err. rbind.
      eapply IH; [exact Hr1|exact Hh1|]. intros rs xss' hv' w' Hr' Hh' Hs'. apply runs_ret. eapply HQ; [done..|]. simpl.
      exists (vals xss1), (w_orc w1). split; [|done]. split; [done|]. split; [by eapply srow_asc|exact Hre].
  Qed.
End det.
