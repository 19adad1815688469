(** * Merge and sort *)
From Verif Require Export ListRelink.

Section merge.
  Context {V : Type} (comp : V -> V -> bool).
  Notation E := (addr * V)%type.
  Implicit Types l : list E.

  (** ** Merging two sequences *)
  Fixpoint mergef (l1 : list E) : list E -> list E :=
    match l1 with
    | [] => fun l2 => l2
    | x1 :: l1' =>
        fix go l2 :=
          match l2 with
          | [] => x1 :: l1'
          | x2 :: l2' => if comp x2.2 x1.2 then x2 :: go l2' else x1 :: mergef l1' (x2 :: l2')
          end
    end.

  Lemma mergef_nil_r l1 : mergef l1 [] = l1.
  Proof. by destruct l1. Qed.
  Lemma mergef_cons x1 l1 x2 l2 :
    mergef (x1 :: l1) (x2 :: l2) = if comp x2.2 x1.2 then x2 :: mergef (x1 :: l1) l2 else x1 :: mergef l1 (x2 :: l2).
  Proof. done. Qed.

  Arguments mergef : simpl never.

  Lemma mergef_perm l1 l2 : mergef l1 l2 ≡ₚ l1 ++ l2.
  Proof.
    revert l2. induction l1 as [|x1 l1 IH1]; intros l2; [done|].
    induction l2 as [|x2 l2 IH2]; [by rewrite app_nil_r|].
    rewrite mergef_cons. destruct (comp _ _).
    - rewrite IH2. perm_solve.
    - rewrite IH1. done.
  Qed.

  Definition srt l : Prop := swo comp -> lsorted comp l.*2.
  Definition sim l l' : Prop := l ≡ₚ l' /\ (swo comp -> forall v, rank_of comp v l = rank_of comp v l').

  Lemma rank_app v l l' : rank_of comp v (l ++ l') = rank_of comp v l ++ rank_of comp v l'.
  Proof. apply filter_app. Qed.

  Lemma sim_refl l : sim l l.
  Proof. done. Qed.
  Lemma sim_trans l1 l2 l3 : sim l1 l2 -> sim l2 l3 -> sim l1 l3.
  Proof. intros [H1 H2] [H3 H4]. split; [by etrans|]. intros Ho v. rewrite H2 by done. by apply H4. Qed.
  Lemma sim_app l1 l2 l1' l2' : sim l1 l1' -> sim l2 l2' -> sim (l1 ++ l2) (l1' ++ l2').
  Proof.
    intros [H1 H2] [H3 H4]. split; [by rewrite H1, H3|]. intros Ho v. rewrite !rank_app, H2, H4 by done. done.
  Qed.

  Lemma lsorted_nil : lsorted comp ([] : list V).
  Proof. intros i j x y _ Hi. done. Qed.
  Lemma lsorted_cons x (vs : list V) :
    lsorted comp (x :: vs) <-> (forall y, y ∈ vs -> comp y x = false) /\ lsorted comp vs.
  Proof.
    split.
    - intros Hs. split.
      + intros y [j Hj]%elem_of_list_lookup. apply (Hs 0 (S j) x y); [lia|done|done].
      + intros i j a b Hij Ha Hb. apply (Hs (S i) (S j)); [lia|done|done].
    - intros [H1 H2] [|i] [|j] a b Hij Ha Hb; simpl in *; [lia| |lia|].
      + simplify_eq. apply H1. by eapply elem_of_list_lookup_2.
      + apply (H2 i j); [lia|done|done].
  Qed.

  (** if [x2] is smaller than [x1] and [l1] sorted from [x1], [x2] is smaller than all of it *)
  Lemma swo_le a b c : swo comp -> comp a b = true -> comp c b = false -> comp a c = true.
  Proof. intros (_ & _ & Hn) Hab Hcb. destruct (Hn a b c Hab) as [?|Hx]; [done|]. congruence. Qed.
  Lemma swo_trans_le a b c : swo comp -> comp b a = false -> comp c b = false -> comp c a = false.
  Proof.
    intros (_ & _ & Hn) Hba Hcb. destruct (comp c a) eqn:E; [|done]. destruct (Hn c a b E) as [?|?]; congruence.
  Qed.

  Lemma mergef_sorted l1 l2 : srt l1 -> srt l2 -> srt (mergef l1 l2).
  Proof.
    intros H1 H2 Ho. specialize (H1 Ho). specialize (H2 Ho).
    revert l2 H1 H2. induction l1 as [|x1 l1 IH1]; intros l2 H1 H2; [done|].
    induction l2 as [|x2 l2 IH2]; [done|].
    rewrite mergef_cons. simpl in *. apply lsorted_cons in H1 as [Ha1 Hs1].
    pose proof H2 as H2'. apply lsorted_cons in H2' as [Ha2 Hs2].
    assert (Hmem : forall y m1 m2, y ∈ (mergef m1 m2).*2 -> y ∈ m1.*2 \/ y ∈ m2.*2).
    { intros y m1 m2. rewrite mergef_perm, fmap_app. apply elem_of_app. }
    destruct (comp x2.2 x1.2) eqn:E; simpl; apply lsorted_cons; split.
    - intros y Hy. apply Hmem in Hy as [Hy|Hy]; [|by apply Ha2].
      simpl in Hy. apply elem_of_cons in Hy as [->|Hy].
      + destruct Ho as (Hir & Htr & _). destruct (comp x1.2 x2.2) eqn:E2; [|done].
        rewrite <-(Hir x2.2). symmetry. by eapply Htr.
      + apply (swo_trans_le _ x1.2); [done| |by apply Ha1].
        destruct Ho as (Hir & Htr & _). destruct (comp x1.2 x2.2) eqn:E2; [|done].
        rewrite <-(Hir x2.2). symmetry. by eapply Htr.
    - apply IH2; done.
    - intros y Hy. apply Hmem in Hy as [Hy|Hy]; [by apply Ha1|].
      simpl in Hy. apply elem_of_cons in Hy as [->|Hy]; [done|].
      apply (swo_trans_le _ x2.2); [done|done|by apply Ha2].
    - by apply IH1.
  Qed.

  Lemma mergef_stable l1 l2 : srt l1 -> sim (mergef l1 l2) (l1 ++ l2).
  Proof.
    intros H1. split; [apply mergef_perm|]. intros Ho v. specialize (H1 Ho). revert l2.
    induction l1 as [|x1 l1 IH1]; intros l2; [done|].
    simpl in H1. apply lsorted_cons in H1 as [Ha1 Hs1].
    induction l2 as [|x2 l2 IH2]; [by rewrite app_nil_r|].
    rewrite mergef_cons. destruct (comp x2.2 x1.2) eqn:E.
    - rewrite (cons_app_1 x2 (mergef _ _)), rank_app, IH2, (cons_app_1 x2 l2), !rank_app.
      rewrite !(assoc_L (++)). f_equal. destruct (same_rank comp v x2.2) eqn:Ev.
      + assert (rank_of comp v (x1 :: l1) = []) as ->; [|by rewrite app_nil_r].
        assert (Hall : forall y, y ∈ (x1 :: l1).*2 -> comp x2.2 y = true).
        { intros y. simpl. rewrite elem_of_cons. intros [->|Hy]; [done|]. eapply swo_le; [done|exact E|by apply Ha1]. }
        clear -Hall Ev Ho. induction (x1 :: l1) as [|y l IH]; [done|]. unfold rank_of.
        rewrite filter_cons_False; [apply IH; intros z Hz; apply Hall; set_solver|].
        unfold same_rank in *. apply andb_prop in Ev as [Ev1 Ev2]. apply negb_true_iff in Ev1, Ev2.
        assert (comp v y.2 = true) as ->; [|done].
        destruct Ho as (_ & _ & Hn). destruct (Hn x2.2 y.2 v); [apply Hall; set_solver|congruence|done].
      + assert (rank_of comp v [x2] = []) as ->; [|by rewrite app_nil_r].
        unfold rank_of. by rewrite filter_cons_False by congruence.
    - rewrite (cons_app_1 x1 (mergef _ _)), rank_app, IH1 by done. rewrite (cons_app_1 x1 l1), !rank_app.
      by rewrite (assoc_L (++)).
  Qed.
End merge.
Arguments mergef : simpl never.

Section sort.
  Context {V : Type} (cf : cfg V) (comp : V -> V -> bool).
  Notation H := (gmap addr (lcell V)).
  Notation W := (world (lcell V)).
  Notation L := (list (addr * list (addr * V))).
  Notation E := (addr * V)%type.
  Implicit Types hv hf : H.
  Implicit Types w : W.
  Implicit Types ls R : L.

  (** ** merge *)

  Lemma runs_merge_loop fuel w al h1 d r1 h2 r2 R hv hf (Q : _ -> W -> Prop) :
    heap_is w hv hf -> lists_own al ((h1, d ++ r1) :: (h2, r2) :: R) hv -> length r1 + length r2 < fuel ->
    (forall d' r1' r2', d' ++ mergef comp r1' r2' = d ++ mergef comp r1 r2 -> (r1' = [] \/ r2' = []) ->
       relinked al ((h1, d' ++ r1') :: (h2, r2') :: R) hf w (hdx r1'.*1 h1, hdx r2'.*1 h2) Q) ->
    runs (merge_loop cf fuel comp (hdx r1.*1 h1) h1 (hdx r2.*1 h2) h2) w Q.
  Proof.
    revert w hv d r1 r2. induction fuel as [|fuel IH]; intros w hv d r1 r2 Hh Ho Hf HQ; [lia|].
    assert (Ho2 : lists_own al ((h2, r2) :: (h1, d ++ r1) :: R) hv).
    { eapply own_perm; [|done]. apply perm_swap. }
    assert (Hself : forall q, relinked al ((h1, d ++ r1) :: (h2, r2) :: R) hf w q Q -> Q q w).
    { intros q Hq. rewrite <-(heap_is_self _ _ _ Hh). apply Hq; [done|]. by rewrite (heap_is_self _ _ _ Hh). }
    simpl. rbind. eapply runs_it_eq; [done|exact Ho|apply hdx_in|apply hdr_in|].
    destruct r1 as [|[a1 v1] r1]; simpl.
    { rewrite bool_decide_true by done. apply runs_ret. apply Hself. apply (HQ d [] r2); [done|by left]. }
    rewrite bool_decide_false by (by eapply own_hdr_ne).
    rbind. eapply runs_it_eq; [done|exact Ho2|apply (hdx_in h2 [])|apply hdr_in|].
    destruct r2 as [|[a2 v2] r2]; simpl.
    { rewrite bool_decide_true by done. apply runs_ret. apply Hself. apply (HQ d ((a1, v1) :: r1) []); [done|by right]. }
    rewrite bool_decide_false by (by eapply (own_hdr_ne _ _ [])).
    rbind. eapply (runs_deref cf w al h2 []); [done|exact Ho2|].
    rbind. eapply runs_deref; [done|exact Ho|].
    rewrite mergef_cons in HQ. simpl in HQ. destruct (comp v2 v1) eqn:Ec.
    - rbind. eapply (runs_it_inc cf w al h2 []); [done|exact Ho2|].
      rbind. eapply (runs_transfer_other cf w al h1 d ((a1, v1) :: r1) h2 [] [(a2, v2)] r2 R); [done|exact Ho|done|].
      intros hv1 Ho1 Hh1. simpl in Ho1.
      eapply (IH _ _ (d ++ [(a2, v2)]) ((a1, v1) :: r1) r2).
      + exact Hh1.
      + by rewrite <-(assoc_L (++)).
      + simpl in *. lia.
      + intros d' r1' r2' Heq Hor. apply HQ; [|done]. rewrite Heq. by rewrite <-(assoc_L (++)).
    - rbind. eapply runs_it_inc; [done|exact Ho|].
      eapply (IH _ _ (d ++ [(a1, v1)]) r1 ((a2, v2) :: r2)).
      + exact Hh.
      + by rewrite <-(assoc_L (++)).
      + simpl in *. lia.
      + intros d' r1' r2' Heq Hor. apply HQ; [|done]. rewrite Heq. by rewrite <-(assoc_L (++)).
  Qed.

  Lemma own_hdrs_ne al h1 x1 h2 x2 R hv : lists_own al ((h1, x1) :: (h2, x2) :: R) hv -> h1 <> h2.
  Proof.
    intros (Hn & _) ->. rewrite !list_addrs_cons in Hn. apply NoDup_app in Hn as (_ & Hn & _). apply (Hn h2); set_solver.
  Qed.

  Lemma runs_lst_merge w al h1 x1 h2 x2 R hv hf al1 al2 (Q : _ -> W -> Prop) :
    heap_is w hv hf -> lists_own al ((h1, x1) :: (h2, x2) :: R) hv ->
    relinked al ((h1, mergef comp x1 x2) :: (h2, []) :: R) hf w tt Q ->
    runs (lst_merge cf comp (Lst al1 h1) (Lst al2 h2)) w Q.
  Proof.
    intros Hh Ho HQ. assert (Ho2 : lists_own al ((h2, x2) :: (h1, x1) :: R) hv).
    { eapply own_perm; [|done]. apply perm_swap. }
    unfold lst_merge. simpl. rbind. apply runs_assert.
    { rewrite bool_decide_false; [done|]. by eapply own_hdrs_ne. }
    rbind. eapply runs_begin; [done|exact Ho|]. rbind. eapply runs_end; [done|exact Ho|].
    rbind. eapply runs_begin; [done|exact Ho2|]. rbind. eapply runs_end; [done|exact Ho2|].
    rbind. eapply runs_heap_fuel; [done|exact Ho|]. intros fuel Hfu. rewrite list_addrs_cons in Hfu. simpl in Hfu.
    rewrite app_length, fmap_length in Hfu.
    rbind. eapply (runs_merge_loop fuel w al h1 [] x1 h2 x2 R); [done|exact Ho|lia|].
    intros d' r1' r2' Heq Hor hv1 Ho1 Hh1. simpl in Heq.
    assert (Ho12 : lists_own al ((h2, r2') :: (h1, d' ++ r1') :: R) hv1).
    { eapply own_perm; [|done]. apply perm_swap. }
    simpl. rbind. eapply runs_it_eq; [done|exact Ho12|apply (hdx_in h2 [])|apply hdr_in|].
    destruct r2' as [|[a v] r2']; simpl.
    - rewrite bool_decide_true by done. apply runs_ret. apply HQ; [|done]. rewrite <-Heq, mergef_nil_r. done.
    - rewrite bool_decide_false by (by eapply (own_hdr_ne _ _ [])). destruct Hor as [-> | ?]; [|done].
      eapply (runs_transfer_other cf _ al h1 d' [] h2 [] ((a, v) :: r2') [] R); [done|simpl; rewrite (app_nil_r r2'); exact Ho1|done|].
      intros hv2 Ho3 Hh2. simpl in Ho3. apply HQ; [|done]. rewrite <-Heq. by rewrite app_nil_r in Ho3.
  Qed.

  (** ** The array of bins *)

  Lemma runs_new_lists n w al ls hv hf (Q : _ -> W -> Prop) :
    heap_is w hv hf -> lists_own al ls hv ->
    (forall hbs, length hbs = n ->
       relinked al (zip hbs (replicate n []) ++ ls) hf w (map (Lst (c_dflt cf)) hbs) Q) ->
    runs (new_lists cf n) w Q.
  Proof.
    revert w ls hv Q. induction n as [|n IH]; intros w ls hv Q Hh Ho HQ; simpl.
    - apply runs_ret. rewrite <-(heap_is_self _ _ _ Hh). apply (HQ []); [done|done|]. by rewrite (heap_is_self _ _ _ Hh).
    - rbind. eapply runs_lst_new; [done..|]. intros a hv1 Ha Ho1 Hh1. rbind. eapply IH; [done..|].
      intros hbs Hl hv2 Ho2 Hh2. apply runs_ret. apply (HQ (a :: hbs)); [simpl; by f_equal| |done].
      eapply own_perm; [|exact Ho2]. simpl. perm_solve.
  Qed.

  Lemma runs_destroy_lists os w al ls hv hf (Q : _ -> W -> Prop) :
    heap_is w hv hf -> lists_own al (map (fun o => (l_hdr o, [])) os ++ ls) hv ->
    relinked al ls hf w tt Q ->
    runs (destroy_lists os) w Q.
  Proof.
    revert w hv. induction os as [|[al0 h] os IH]; intros w hv Hh Ho HQ; simpl.
    - apply runs_ret. rewrite <-(heap_is_self _ _ _ Hh). apply HQ; [done|]. by rewrite (heap_is_self _ _ _ Hh).
    - rbind. eapply (runs_lst_destroy w al h []); [done|exact Ho|by right|]. intros hv1 Ho1 Hh1.
      eapply IH; [exact Hh1|done|]. intros hv2 Ho2 Hh2. by apply HQ.
  Qed.

  Lemma runs_bin hbs c h w (Q : _ -> W -> Prop) :
    hbs !! c = Some h -> Q (Lst (c_dflt cf) h) w -> runs (bin (V := V) (map (Lst (c_dflt cf)) hbs) c) w Q.
  Proof.
    intros Hc HQ. unfold bin. change (map (Lst (c_dflt cf)) hbs) with (Lst (c_dflt cf) <$> hbs).
    rewrite list_lookup_fmap, Hc. simpl. by apply runs_ret.
  Qed.

  (** bins and their contents: sizes are powers of two *)
  Definition bin_ok (i : nat) (b : list E) : Prop :=
    srt comp b /\ (b = [] \/ N.of_nat (length b) = (2 ^ N.of_nat i)%N).
  Definition bins_ok (bss : list (list E)) : Prop := forall i b, bss !! i = Some b -> bin_ok i b.
  Definition above_empty (fill : nat) (bss : list (list E)) : Prop := forall i b, fill <= i -> bss !! i = Some b -> b = [].

  Lemma zip_mid {A B} (H1 H2 : list A) h (B1 B2 : list B) b :
    length H1 = length B1 -> zip (H1 ++ h :: H2) (B1 ++ b :: B2) = zip H1 B1 ++ (h, b) :: zip H2 B2.
  Proof. intros Hl. by rewrite zip_with_app. Qed.
  Lemma concat_replicate_nil {A} n : concat (replicate n ([] : list A)) = [].
  Proof. by induction n. Qed.
  Lemma concat_rev_replicate {A} n (l : list (list A)) : concat (reverse (replicate n [] ++ l)) = concat (reverse l).
  Proof. rewrite reverse_app, reverse_replicate, concat_app, concat_replicate_nil. by rewrite app_nil_r. Qed.

  Lemma runs_carry_loop fuel w al hc cs H1 H2 B2 fill R hv hf (Q : _ -> W -> Prop) :
    let c := length H1 in
    heap_is w hv hf ->
    lists_own al ((hc, cs) :: zip (H1 ++ H2) (replicate c [] ++ B2) ++ R) hv ->
    length H2 = length B2 -> c <= fill <= length (H1 ++ H2) -> length H2 < fuel ->
    bins_ok (replicate c [] ++ B2) -> above_empty fill (replicate c [] ++ B2) ->
    srt comp cs -> N.of_nat (length cs) = (2 ^ N.of_nat c)%N ->
    (forall k cs' B3, c <= k <= fill -> k + length B3 = length (H1 ++ H2) ->
       bins_ok (replicate k [] ++ B3) -> above_empty fill (replicate k [] ++ B3) ->
       (k = fill \/ hd_error B3 = Some []) -> srt comp cs' -> N.of_nat (length cs') = (2 ^ N.of_nat k)%N ->
       sim comp (concat (reverse B3) ++ cs') (concat (reverse B2) ++ cs) ->
       relinked al ((hc, cs') :: zip (H1 ++ H2) (replicate k [] ++ B3) ++ R) hf w k Q) ->
    runs (carry_loop cf fuel comp (Lst (c_dflt cf) hc) (map (Lst (c_dflt cf)) (H1 ++ H2)) fill c) w Q.
  Proof.
    intros c. revert w hv cs H1 H2 B2 c. induction fuel as [|fuel IH]; intros w hv cs H1 H2 B2 c Hh Ho HlB Hc Hfu Hb Hab Hsc Hlc HQ; [lia|].
    assert (Hself : forall q, relinked al ((hc, cs) :: zip (H1 ++ H2) (replicate c [] ++ B2) ++ R) hf w q Q -> Q q w).
    { intros q Hq. rewrite <-(heap_is_self _ _ _ Hh). apply Hq; [done|]. by rewrite (heap_is_self _ _ _ Hh). }
    simpl. destruct (decide (c = fill)) as [Heq|Hne].
    { apply runs_ret. apply Hself. apply (HQ c cs B2); [lia|rewrite app_length; unfold c in *; lia|done|done|by left|done|done|apply sim_refl]. }
    destruct H2 as [|h H2]; [rewrite app_nil_r in Hc; unfold c in *; lia|].
    destruct B2 as [|b B2]; [done|].
    rbind. apply (runs_bin _ _ h); [by apply list_lookup_middle|].
    assert (Hp : forall cs' b', (hc, cs') :: zip (H1 ++ h :: H2) (replicate c [] ++ b' :: B2) ++ R ≡ₚ
      (h, b') :: (hc, cs') :: zip H1 (replicate c []) ++ zip H2 B2 ++ R).
    { intros. rewrite zip_mid by (by rewrite replicate_length). perm_solve. }
    assert (Ho' : lists_own al ((h, b) :: (hc, cs) :: zip H1 (replicate c []) ++ zip H2 B2 ++ R) hv).
    { eapply own_perm; [|exact Ho]. apply Hp. }
    rbind. eapply runs_lst_empty; [done|exact Ho'|].
    destruct (decide (b = [])) as [->|Hbne].
    { rewrite bool_decide_true by done. apply runs_ret. apply Hself. apply (HQ c cs ([] :: B2)); [lia| |done|done|by right|done|done|apply sim_refl].
      rewrite app_length. simpl in *. unfold c in *. lia. }
    rewrite bool_decide_false by done.
    destruct (Hb c b) as [Hsb [?|Hlb]]; [apply list_lookup_middle; by rewrite replicate_length|done|].
    rbind. eapply (runs_lst_merge _ al h b hc cs); [done|exact Ho'|]. intros hv1 Ho1 Hh1.
    rbind. eapply (runs_lst_swap cf _ al hc [] h (mergef comp b cs)); [exact Hh1|eapply own_perm; [|exact Ho1]; apply perm_swap|].
    intros hv2 Ho2 Hh2.
    assert (Hc' : S c = length (H1 ++ [h])) by (rewrite app_length; simpl; unfold c; lia).
    assert (Hrep : replicate (S c) ([] : list E) = replicate c [] ++ [[]]).
    { change (S c) with (1 + c). rewrite Nat.add_comm, replicate_add. done. }
    assert (Hlow : forall i x, (replicate (S c) [] ++ B2) !! i = Some x -> x = [] \/ (replicate c [] ++ b :: B2) !! i = Some x).
    { intros i x Hi. destruct (decide (i < S c)).
      - left. rewrite lookup_app_l in Hi by (by rewrite replicate_length). by apply lookup_replicate in Hi as [-> _].
      - right. rewrite lookup_app_r in Hi |- * by (rewrite replicate_length; lia). rewrite replicate_length in *.
        replace (i - c) with (S (i - S c)) by lia. done. }
    replace (H1 ++ h :: H2) with ((H1 ++ [h]) ++ H2) in * by (by rewrite <-(assoc_L (++))).
    rewrite Hc'. eapply (IH _ hv2 (mergef comp b cs) (H1 ++ [h]) H2 B2); rewrite <-?Hc'.
    - exact Hh2.
    - rewrite Hrep. rewrite <-(assoc_L (++) (replicate c [])). simpl. eapply own_perm; [|exact Ho2].
      rewrite Hp. perm_solve.
    - simpl in HlB. lia.
    - lia.
    - simpl in Hfu. lia.
    - intros i x Hi. destruct (Hlow _ _ Hi) as [->|?]; [split; [intros ?; apply lsorted_nil|by left]|by apply Hb].
    - intros i x Hf Hi. destruct (Hlow _ _ Hi) as [->|?]; [done|by eapply Hab].
    - by apply mergef_sorted.
    - pose proof (Permutation_length (mergef_perm comp b cs)) as Hl. rewrite app_length in Hl.
      rewrite Hl, Nat2N.inj_add, Hlb, Hlc. rewrite Nat2N.inj_succ, N.pow_succ_r'. lia.
    - intros k cs' B3 Hk Hlen Hb3 Hab3 Hor Hs3 Hl3 Hsim hv3 Ho3 Hh3. eapply (HQ k cs' B3); try done; [lia|].
      eapply sim_trans; [exact Hsim|]. rewrite reverse_cons, concat_app. simpl. rewrite app_nil_r, <-(assoc_L (++)).
      apply sim_app; [done|]. by apply mergef_stable.
  Qed.

  Lemma zip_replicate_split (H1 H2 : list addr) n (B : list (list E)) :
    length H1 = n -> zip (H1 ++ H2) (replicate n [] ++ B) = zip H1 (replicate n []) ++ zip H2 B.
  Proof. intros. apply zip_with_app. by rewrite replicate_length. Qed.

  Lemma split_at {A} (l : list A) k : k <= length l -> exists l1 l2, l = l1 ++ l2 /\ length l1 = k.
  Proof. intros. exists (take k l), (drop k l). rewrite take_drop, take_length. split; [done|lia]. Qed.

  Lemma runs_sort_loop fuel w al hdr xs hc hbs bss fill R hv hf al0 (Q : _ -> W -> Prop) :
    heap_is w hv hf ->
    lists_own al ((hdr, xs) :: (hc, []) :: zip hbs bss ++ R) hv ->
    xs <> [] -> length xs < fuel -> length hbs = 64 -> length bss = 64 -> fill <= 64 ->
    bins_ok bss -> above_empty fill bss ->
    (N.of_nat (length (concat bss) + length xs) < 2 ^ 64)%N ->
    (forall bss' fill', length bss' = 64 -> 1 <= fill' <= 64 -> bins_ok bss' -> above_empty fill' bss' ->
       sim comp (concat (reverse bss')) (concat (reverse bss) ++ xs) ->
       relinked al ((hdr, []) :: (hc, []) :: zip hbs bss' ++ R) hf w fill' Q) ->
    runs (sort_loop cf fuel comp (Lst al0 hdr) (Lst (c_dflt cf) hc) (map (Lst (c_dflt cf)) hbs) fill) w Q.
  Proof.
    revert w hv xs bss fill. induction fuel as [|fuel IH]; intros w hv xs bss fill Hh Ho Hne Hfu Hlh Hlb Hfill Hb Hab Hbound HQ; [lia|].
    destruct xs as [|[x v] xs]; [done|].
    assert (Hb2 : (N.of_nat (length (concat bss)) + N.of_nat (length xs) + 1 < 2 ^ 64)%N).
    { clear -Hbound. cbn [length] in Hbound. lia. }
    assert (Ho2 : lists_own al ((hc, []) :: (hdr, (x, v) :: xs) :: zip hbs bss ++ R) hv).
    { eapply own_perm; [|exact Ho]. apply perm_swap. }
    cbn -[carry_loop]. rbind. eapply runs_begin; [done|exact Ho2|]. rbind. eapply runs_begin; [done|exact Ho|].
    rbind. eapply (runs_splice_one_other cf w al hc [] [] hdr [] x v xs); [done|exact Ho2|]. intros hv1 Ho1 Hh1. simpl in Ho1.
    rbind. rewrite map_length, Hlh.
    eapply (runs_carry_loop _ _ al hc [(x, v)] [] hbs bss fill ((hdr, xs) :: R)).
    { exact Hh1. }
    { simpl. eapply own_perm; [|exact Ho1]. perm_solve. }
    { congruence. }
    { simpl. lia. }
    { lia. }
    { exact Hb. }
    { exact Hab. }
    { intros _. simpl. intros i j a b Hij Hi Hj. destruct i, j; simpl in *; try lia; try done. }
    { done. }
    intros k cs' B3 Hk Hlen Hb3 Hab3 Hor Hs3 Hl3 Hsim hv2 Ho3 Hh2. simpl in *.
    assert (Hlt : k < 64).
    { destruct Hsim as [Hperm _]. apply Permutation_length in Hperm. rewrite !app_length in Hperm. simpl in Hperm.
      assert (Hcr : length (concat (reverse bss)) = length (concat bss)).
      { apply Permutation_length, concat_perm. apply reverse_Permutation. }
      destruct (decide (k < 64)); [done|].
      assert (2 ^ 64 <= N.of_nat (length cs'))%N; [|lia]. rewrite Hl3. apply N.pow_le_mono_r; lia. }
    destruct B3 as [|b B3]; [simpl in Hlen; lia|].
    assert (b = []) as ->.
    { destruct Hor as [->|Hhd]; [|simpl in Hhd; congruence].
      eapply Hab3; [reflexivity|]. apply list_lookup_middle. by rewrite replicate_length. }
    destruct (split_at hbs k) as (H1 & H2 & -> & HlH); [lia|].
    destruct H2 as [|h H2]; [rewrite app_nil_r in Hlh; lia|].
    rbind. eapply runs_bin; [by apply list_lookup_middle|].
    assert (Hp : forall b', zip (H1 ++ h :: H2) (replicate k [] ++ b' :: B3) ≡ₚ (h, b') :: zip H1 (replicate k []) ++ zip H2 B3).
    { intros. rewrite zip_mid by (by rewrite replicate_length). perm_solve. }
    assert (Ho3' : lists_own al ((hc, cs') :: (h, []) :: (zip H1 (replicate k []) ++ zip H2 B3) ++ (hdr, xs) :: R) hv2).
    { eapply own_perm; [|exact Ho3]. rewrite Hp. perm_solve. }
    rbind. eapply (runs_lst_swap cf _ al hc cs' h []); [exact Hh2|exact Ho3'|]. intros hv3 Ho4 Hh3.
    set (bss' := replicate k [] ++ cs' :: B3).
    set (fill' := if decide (k = fill) then S fill else fill).
    assert (Ho4' : lists_own al ((hdr, xs) :: (hc, []) :: zip (H1 ++ h :: H2) bss' ++ R) hv3).
    { eapply own_perm; [|exact Ho4]. unfold bss'. rewrite Hp. perm_solve. }
    assert (Hlb' : length bss' = 64).
    { unfold bss'. rewrite app_length, replicate_length in *. simpl in *. lia. }
    assert (Hkf : k < fill' /\ fill' <= 64 /\ fill <= fill') by (unfold fill'; case_decide; lia).
    assert (Hlk : forall i y, bss' !! i = Some y -> (i = k /\ y = cs') \/ (i <> k /\ (replicate k [] ++ [] :: B3) !! i = Some y)).
    { intros i y Hi. unfold bss' in Hi. destruct (decide (i = k)) as [->|Hik].
      - rewrite list_lookup_middle in Hi by (by rewrite replicate_length). left. by simplify_eq.
      - right. split; [done|]. destruct (decide (i < k)).
        + by rewrite lookup_app_l in Hi |- * by (by rewrite replicate_length).
        + rewrite lookup_app_r in Hi |- * by (rewrite replicate_length; lia). rewrite replicate_length in *.
          destruct (i - k) eqn:Ei; [lia|]. done. }
    assert (Hb' : bins_ok bss').
    { intros i y Hi. destruct (Hlk _ _ Hi) as [[-> ->]|[_ Hi']]; [split; [done|by right]|by apply Hb3]. }
    assert (Hab' : above_empty fill' bss').
    { intros i y Hf Hi. destruct (Hlk _ _ Hi) as [[-> ->]|[_ Hi']]; [lia|]. eapply (Hab3 i); [lia|done]. }
    assert (Hsim' : sim comp (concat (reverse bss')) (concat (reverse bss) ++ [(x, v)])).
    { unfold bss'. rewrite concat_rev_replicate. rewrite reverse_cons, concat_app. simpl. rewrite app_nil_r.
      rewrite reverse_cons, concat_app in Hsim. simpl in Hsim. by rewrite app_nil_r in Hsim. }
    rbind. eapply runs_lst_empty; [exact Hh3|exact Ho4'|].
    destruct xs as [|[y u] xs]; simpl.
    - apply runs_ret. apply (HQ bss' fill'); try done. lia.
    - eapply (IH _ hv3 ((y, u) :: xs) bss' fill'); try done; [simpl in *; lia|lia| |].
      { destruct Hsim' as [Hperm _]. apply Permutation_length in Hperm. rewrite app_length in Hperm. simpl in Hperm.
        assert (Hcr : forall l : list (list E), length (concat (reverse l)) = length (concat l)).
        { intros. apply Permutation_length, concat_perm. apply reverse_Permutation. }
        rewrite !Hcr in Hperm. rewrite Hperm. clear -Hb2. cbn [length] in *. lia. }
      intros bss'' fill'' Hl'' Hf'' Hb'' Ha'' Hs'' hv4 Ho5 Hh4. apply (HQ bss'' fill''); try done.
      eapply sim_trans; [exact Hs''|]. rewrite (cons_app_1 (x, v)), (assoc_L (++)). by apply sim_app.
  Qed.

  Lemma runs_fold_loop fuel w al H1 h H2 b B2 fill R hv hf (Q : _ -> W -> Prop) :
    let c := length H1 in
    heap_is w hv hf ->
    lists_own al (zip (H1 ++ h :: H2) (replicate c [] ++ b :: B2) ++ R) hv ->
    length H2 = length B2 -> S c <= fill <= length (H1 ++ h :: H2) -> length H2 < fuel ->
    srt comp b -> (forall x, x ∈ B2 -> srt comp x) -> (forall i x, fill <= S c + i -> B2 !! i = Some x -> x = []) ->
    (forall h' H3 H4 b', H1 ++ h :: H2 = H3 ++ h' :: H4 -> S (length H3) = fill -> srt comp b' ->
       sim comp b' (concat (reverse B2) ++ b) ->
       relinked al ((h', b') :: zip (H3 ++ H4) (replicate (length (H3 ++ H4)) []) ++ R) hf w tt Q) ->
    runs (fold_loop cf fuel comp (map (Lst (c_dflt cf)) (H1 ++ h :: H2)) fill (S c)) w Q.
  Proof.
    intros c. revert w hv H1 h H2 b B2 c. induction fuel as [|fuel IH]; intros w hv H1 h H2 b B2 c Hh Ho Hl Hf Hfu Hsb HsB Hab HQ; [lia|].
    cbn -[bin Nat.sub]. destruct (decide (S c = fill)) as [Heq|Hne].
    - apply runs_ret. rewrite <-(heap_is_self _ _ _ Hh).
      assert (HB2 : B2 = replicate (length H2) []).
      { rewrite Hl. apply list_eq. intros i. destruct (B2 !! i) as [x|] eqn:Ei.
        - assert (x = []) as -> by (eapply (Hab i); [lia|done]). symmetry. apply lookup_replicate. split; [done|].
          by eapply lookup_lt_Some.
        - symmetry. apply lookup_ge_None_2. rewrite replicate_length. by apply lookup_ge_None_1. }
      apply (HQ h H1 H2 b); try done.
      + rewrite HB2, reverse_replicate, concat_replicate_nil. apply sim_refl.
      + eapply own_perm; [|exact Ho]. rewrite zip_mid by (by rewrite replicate_length). rewrite HB2.
        rewrite app_length, replicate_add, zip_with_app by (by rewrite replicate_length).
        fold c. perm_solve.
      + by rewrite (heap_is_self _ _ _ Hh).
    - destruct H2 as [|h2 H2]; [rewrite app_length in Hf; simpl in Hf; unfold c in *; lia|].
      destruct B2 as [|b2 B2]; [done|].
      rbind. eapply (runs_bin _ _ h2).
      { replace (H1 ++ h :: h2 :: H2) with ((H1 ++ [h]) ++ h2 :: H2) by (by rewrite <-(assoc_L (++))).
        apply list_lookup_middle. rewrite app_length; simpl; unfold c; lia. }
      rbind. eapply (runs_bin _ _ h).
      { apply list_lookup_middle. unfold c. lia. }
      assert (Hp : forall x y, zip (H1 ++ h :: h2 :: H2) (replicate c [] ++ x :: y :: B2) ++ R ≡ₚ
        (h2, y) :: (h, x) :: zip H1 (replicate c []) ++ zip H2 B2 ++ R).
      { intros. rewrite zip_mid by (by rewrite replicate_length). simpl. perm_solve. }
      rbind. eapply (runs_lst_merge _ al h2 b2 h b); [done|eapply own_perm; [apply Hp|exact Ho]|].
      intros hv1 Ho1 Hh1.
      assert (Hc' : S c = length (H1 ++ [h])) by (rewrite app_length; simpl; unfold c; lia).
      assert (Hrep : replicate (S c) ([] : list E) = replicate c [] ++ [[]]).
      { change (S c) with (1 + c). rewrite Nat.add_comm, replicate_add. done. }
      assert (HH : H1 ++ h :: h2 :: H2 = (H1 ++ [h]) ++ h2 :: H2) by (by rewrite <-(assoc_L (++))).
      rewrite HH. rewrite HH in Hf. rewrite Hc'.
      eapply (IH _ hv1 (H1 ++ [h]) h2 H2 (mergef comp b2 b) B2); rewrite <-?Hc'.
      + exact Hh1.
      + rewrite Hrep. rewrite <-(assoc_L (++) (replicate c [])). simpl. rewrite <-HH. eapply own_perm; [|exact Ho1]. by rewrite Hp.
      + simpl in Hl. lia.
      + lia.
      + simpl in Hfu. lia.
      + apply mergef_sorted; [apply HsB; set_solver|done].
      + intros x Hx. apply HsB. set_solver.
      + intros i x Hi Hx. apply (Hab (S i)); [lia|done].
      + intros h' H3 H4 b' Heq3 Hl3 Hs' Hsim hv2 Ho2 Hh2. apply (HQ h' H3 H4 b'); try done; [by rewrite HH|].
        eapply sim_trans; [exact Hsim|]. rewrite reverse_cons, concat_app. simpl. rewrite app_nil_r, <-(assoc_L (++)).
        apply sim_app; [done|]. apply mergef_stable. apply HsB. set_solver.
  Qed.

  Lemma srt_short l : length l <= 1 -> srt comp (l : list E).
  Proof.
    intros Hl _ i j x y Hij Hi Hj. apply lookup_lt_Some in Hj. rewrite fmap_length in Hj. lia.
  Qed.

  Lemma runs_lst_sort w al hdr xs R hv hf al0 (Q : _ -> W -> Prop) :
    heap_is w hv hf -> lists_own al ((hdr, xs) :: R) hv -> (N.of_nat (length xs) < 2 ^ 64)%N ->
    (forall ys, srt comp ys -> sim comp ys xs -> relinked al ((hdr, ys) :: R) hf w tt Q) ->
    runs (lst_sort cf comp (Lst al0 hdr)) w Q.
  Proof.
    intros Hh Ho Hlen HQ.
    assert (Htriv : length xs <= 1 -> Q tt w).
    { intros Hl. rewrite <-(heap_is_self _ _ _ Hh). apply (HQ xs); [by apply srt_short|apply sim_refl|done|].
      by rewrite (heap_is_self _ _ _ Hh). }
    pose proof (own_link_at _ _ [] xs _ _ Ho) as [Hn _]. simpl in Hn.
    unfold lst_sort. rbind. eapply runs_get_next; [done..|].
    destruct xs as [|[x v] xs]; simpl hdx in *.
    { rewrite decide_True by done. apply runs_ret. apply Htriv. simpl; lia. }
    rewrite decide_False by (by eapply (own_hdr_ne _ _ [])).
    pose proof (own_link_at _ hdr [(x, v)] xs R _ Ho) as [Hn2 _]. simpl in Hn2.
    rbind. eapply runs_get_next; [done..|]. simpl l_hdr.
    destruct xs as [|[y u] xs].
    { simpl hdx. rewrite decide_True by done. apply runs_ret. apply Htriv. simpl; lia. }
    simpl hdx. rewrite decide_False by exact (own_hdr_ne al hdr [(x, v)] y u xs R hv Ho). clear Htriv.
    set (l0 := (x, v) :: (y, u) :: xs) in *.
    rbind. eapply runs_lst_new; [done..|]. intros hc hv1 _ Ho1 Hh1.
    rbind. eapply runs_new_lists; [done..|]. intros hbs Hlh hv2 Ho2 Hh2.
    assert (Ho2' : lists_own al ((hdr, l0) :: (hc, []) :: zip hbs (replicate 64 []) ++ R) hv2).
    { eapply own_perm; [|exact Ho2]. perm_solve. }
    rbind. eapply runs_heap_fuel; [done|exact Ho2'|]. intros fuel Hfu.
    rbind. eapply (runs_sort_loop fuel _ al hdr l0 hc hbs (replicate 64 []) 0 R hv2 hf al0).
    { exact Hh2. } { exact Ho2'. } { done. } { lia. } { done. } { done. } { lia. }
    { intros i b Hi. apply lookup_replicate in Hi as [-> _]. split; [apply srt_short; simpl; lia|by left]. }
    { intros i b _ Hi. by apply lookup_replicate in Hi as [-> _]. }
    { rewrite concat_replicate_nil. done. }
    intros bss fill Hlb Hf Hb Hab Hsim hv3 Ho3 Hh3.
    rewrite reverse_replicate, concat_replicate_nil in Hsim. simpl in Hsim.
    destruct hbs as [|h hbs]; [done|]. destruct bss as [|b bss]; [done|].
    rewrite map_length, Hlh.
    rbind. eapply (runs_fold_loop 65 _ al [] h hbs b bss fill ((hdr, []) :: (hc, []) :: R)).
    { exact Hh3. }
    { simpl. eapply own_perm; [|exact Ho3]. simpl. perm_solve. }
    { simpl in *. congruence. }
    { simpl in *. lia. }
    { simpl in *. lia. }
    { by apply (Hb 0 b). }
    { intros z [i Hi]%elem_of_list_lookup. by apply (Hb (S i) z). }
    { intros i z Hi Hz. apply (Hab (S i) z); [done|done]. }
    intros h' H3 H4 ys Heq Hl3 Hs' Hsim' hv4 Ho4 Hh4.
    rewrite reverse_cons, concat_app in Hsim. simpl in Hsim. rewrite app_nil_r in Hsim.
    simpl app in Heq. rewrite Heq in *.
    rbind. eapply (runs_bin _ _ h'); [apply list_lookup_middle; lia|].
    rbind. eapply (runs_lst_swap cf _ al hdr [] h' ys (zip (H3 ++ H4) (replicate (length (H3 ++ H4)) []) ++ (hc, []) :: R)); [exact Hh4|eapply own_perm; [|exact Ho4]; perm_solve|].
    intros hv5 Ho5 Hh5.
    rbind. eapply (runs_destroy_lists _ _ al ((hdr, ys) :: (hc, []) :: R)); [exact Hh5| |].
    { eapply own_perm; [|exact Ho5].
      assert (Hm : forall l : list addr, map (fun o => (l_hdr o, [] : list E)) (rev (map (Lst (c_dflt cf)) l)) ≡ₚ zip l (replicate (length l) [])).
      { intros l. rewrite <-Permutation_rev, map_map. simpl. induction l as [|z l IH]; [done|]. simpl. by f_equiv. }
      assert (Hz : zip (H3 ++ h' :: H4) (replicate (length (H3 ++ h' :: H4)) ([] : list E)) =
        zip H3 (replicate (length H3) []) ++ (h', []) :: zip H4 (replicate (length H4) [])).
      { rewrite app_length, replicate_add. simpl. by rewrite zip_mid by (by rewrite replicate_length). }
      rewrite Hm.
      rewrite Hz, app_length, replicate_add, zip_with_app by (by rewrite replicate_length). perm_solve. }
    intros hv6 Ho6 Hh6.
    eapply (runs_lst_destroy _ al hc []); [exact Hh6|eapply own_perm; [|exact Ho6]; apply perm_swap|by right|].
    intros hv7 Ho7 Hh7. apply (HQ ys); [done| |done|done].
    eapply sim_trans; [exact Hsim'|exact Hsim].
  Qed.
End sort.
