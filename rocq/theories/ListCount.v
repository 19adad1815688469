(** * Counting the comparisons of merge() and sort() *)
From Verif Require Import Count ListSort.

Section count.
  Context {V : Type} (cf : cfg V) (comp : V -> V -> bool).
  Notation H := (gmap addr (lcell V)).
  Notation W := (world (lcell V)).
  Notation L := (list (addr * list (addr * V))).
  Notation E := (addr * V)%type.
  Implicit Types hv hf : H.
  Implicit Types w : W.
  Implicit Types ls R : L.

  Lemma cruns_merge_loop fuel w al h1 d r1 h2 r2 R hv hf (Q : nat -> _ -> W -> Prop) :
    heap_is w hv hf -> lists_own al ((h1, d ++ r1) :: (h2, r2) :: R) hv -> length r1 + length r2 < fuel ->
    (forall n d' r1' r2', n <= length r1 + length r2 - 1 ->
       d' ++ mergef comp r1' r2' = d ++ mergef comp r1 r2 -> (r1' = [] \/ r2' = []) ->
       relinked al ((h1, d' ++ r1') :: (h2, r2') :: R) hf w (hdx r1'.*1 h1, hdx r2'.*1 h2) (Q n)) ->
    cruns (fun c => merge_loop cf fuel c (hdx r1.*1 h1) h1 (hdx r2.*1 h2) h2) comp w Q.
  Proof.
    revert w hv d r1 r2 Q. induction fuel as [|fuel IH]; intros w hv d r1 r2 Q Hh Ho Hf HQ; [lia|].
    assert (Ho2 : lists_own al ((h2, r2) :: (h1, d ++ r1) :: R) hv).
    { eapply own_perm; [|done]. apply perm_swap. }
    assert (Hself : forall q, relinked al ((h1, d ++ r1) :: (h2, r2) :: R) hf w q (Q 0) -> Q 0 q w).
    { intros q Hq. rewrite <-(heap_is_self _ _ _ Hh). apply Hq; [done|]. by rewrite (heap_is_self _ _ _ Hh). }
    simpl. cstep. eapply runs_it_eq; [done|exact Ho|apply hdx_in|apply hdr_in|].
    destruct r1 as [|[a1 v1] r1]; simpl.
    { rewrite bool_decide_true by done. apply cruns_ret. apply Hself. apply (HQ 0 d [] r2); [lia|done|by left]. }
    rewrite bool_decide_false by (by eapply own_hdr_ne).
    cstep. eapply runs_it_eq; [done|exact Ho2|apply (hdx_in h2 [])|apply hdr_in|].
    destruct r2 as [|[a2 v2] r2]; simpl.
    { rewrite bool_decide_true by done. apply cruns_ret. apply Hself. apply (HQ 0 d ((a1, v1) :: r1) []); [lia|done|by right]. }
    rewrite bool_decide_false by (by eapply (own_hdr_ne _ _ [])).
    cstep. eapply (runs_deref cf w al h2 []); [done|exact Ho2|].
    cstep. eapply runs_deref; [done|exact Ho|].
    rewrite mergef_cons in HQ. simpl in HQ. apply cruns_if; intros Ec; rewrite Ec in HQ.
    - cstep. eapply (runs_it_inc cf w al h2 []); [done|exact Ho2|].
      cstep. eapply (runs_transfer_other cf w al h1 d ((a1, v1) :: r1) h2 [] [(a2, v2)] r2 R); [done|exact Ho|done|].
      intros hv1 Ho1 Hh1. simpl in Ho1.
      eapply (IH _ _ (d ++ [(a2, v2)]) ((a1, v1) :: r1) r2).
      + exact Hh1.
      + by rewrite <-(assoc_L (++)).
      + simpl in *. lia.
      + intros n d' r1' r2' Hn Heq Hor. apply HQ; [simpl in *; lia| |done]. rewrite Heq. by rewrite <-(assoc_L (++)).
    - cstep. eapply runs_it_inc; [done|exact Ho|].
      eapply (IH _ _ (d ++ [(a1, v1)]) r1 ((a2, v2) :: r2)).
      + exact Hh.
      + by rewrite <-(assoc_L (++)).
      + simpl in *. lia.
      + intros n d' r1' r2' Hn Heq Hor. apply HQ; [simpl in *; lia| |done]. rewrite Heq. by rewrite <-(assoc_L (++)).
  Qed.

  Lemma cruns_lst_merge w al h1 x1 h2 x2 R hv hf al1 al2 (Q : nat -> _ -> W -> Prop) :
    heap_is w hv hf -> lists_own al ((h1, x1) :: (h2, x2) :: R) hv ->
    (forall n, n <= length x1 + length x2 - 1 -> relinked al ((h1, mergef comp x1 x2) :: (h2, []) :: R) hf w tt (Q n)) ->
    cruns (fun c => lst_merge cf c (Lst al1 h1) (Lst al2 h2)) comp w Q.
  Proof.
    intros Hh Ho HQ. assert (Ho2 : lists_own al ((h2, x2) :: (h1, x1) :: R) hv).
    { eapply own_perm; [|done]. apply perm_swap. }
    unfold lst_merge. simpl. cstep. apply runs_assert.
    { rewrite bool_decide_false; [done|]. by eapply own_hdrs_ne. }
    cstep. eapply runs_begin; [done|exact Ho|]. cstep. eapply runs_end; [done|exact Ho|].
    cstep. eapply runs_begin; [done|exact Ho2|]. cstep. eapply runs_end; [done|exact Ho2|].
    cstep. eapply runs_heap_fuel; [done|exact Ho|]. intros fuel Hfu. rewrite list_addrs_cons in Hfu. simpl in Hfu.
    rewrite app_length, fmap_length in Hfu.
    cbind. eapply (cruns_merge_loop fuel w al h1 [] x1 h2 x2 R); [done|exact Ho|lia|].
    intros n d' r1' r2' Hn Heq Hor hv1 Ho1 Hh1. simpl in Heq.
    assert (Ho12 : lists_own al ((h2, r2') :: (h1, d' ++ r1') :: R) hv1).
    { eapply own_perm; [|done]. apply perm_swap. }
    simpl. cstep. eapply runs_it_eq; [done|exact Ho12|apply (hdx_in h2 [])|apply hdr_in|].
    destruct r2' as [|[a v] r2']; simpl.
    - rewrite bool_decide_true by done. apply cruns_ret. apply HQ; [lia| |done]. rewrite <-Heq, mergef_nil_r. done.
    - rewrite bool_decide_false by (by eapply (own_hdr_ne _ _ [])). destruct Hor as [-> | ?]; [|done].
      apply cruns_const. eapply (runs_transfer_other cf _ al h1 d' [] h2 [] ((a, v) :: r2') [] R); [done|simpl; rewrite (app_nil_r r2'); exact Ho1|done|].
      intros hv2 Ho3 Hh2. simpl in Ho3. apply HQ; [lia| |done]. rewrite <-Heq. by rewrite app_nil_r in Ho3.
  Qed.

  (** ** Potential: what is in bin i took part in i merges *)
  Fixpoint wsum (k : nat) (bs : list (list E)) : nat :=
    match bs with [] => 0 | b :: bs => k * length b + wsum (S k) bs end.
  Fixpoint fsum (f : nat) (bs : list (list E)) : nat :=
    match bs with [] => 0 | b :: bs => f * length b + fsum (f - 1) bs end.
  Lemma wsum_empty k j B : wsum k (replicate j [] ++ B) = wsum (j + k) B.
  Proof. revert k. induction j as [|j IH]; intros k; simpl; [done|]. rewrite Nat.mul_0_r, IH. simpl. f_equal. lia. Qed.
  Lemma sums_le k f bs : (forall j b, f < j -> bs !! j = Some b -> b = []) ->
    wsum k bs + fsum f bs <= (k + f) * length (concat bs).
  Proof.
    revert k f. induction bs as [|b bs IH]; intros k f He; simpl; [lia|]. rewrite app_length.
    destruct f as [|f].
    - assert (Hall : forall x, x ∈ bs -> x = []).
      { intros x [j Hj]%elem_of_list_lookup. apply (He (S j)); [lia|done]. }
      assert (Hz : length (concat bs) = 0).
      { clear -Hall. induction bs as [|x bs IH]; [done|]. simpl. rewrite (Hall x) by set_solver. simpl. apply IH. set_solver. }
      specialize (IH (S k) 0). simpl in IH |- *. rewrite Hz in *. rewrite Nat.mul_0_r in IH.
      assert (wsum (S k) bs + fsum 0 bs <= 0); [apply IH; intros j x _ Hj; apply Hall; by eapply elem_of_list_lookup_2|]. nia.
    - specialize (IH (S k) f). simpl. rewrite Nat.sub_0_r.
      assert (wsum (S k) bs + fsum f bs <= (S k + f) * length (concat bs)).
      { apply IH. intros j x Hj Hx. apply (He (S j)); [lia|done]. }
      nia.
  Qed.

  Lemma cruns_carry_loop fuel w al hc cs H1 H2 B2 fill R hv hf (Q : nat -> _ -> W -> Prop) :
    let c := length H1 in
    heap_is w hv hf ->
    lists_own al ((hc, cs) :: zip (H1 ++ H2) (replicate c [] ++ B2) ++ R) hv ->
    length H2 = length B2 -> c <= fill <= length (H1 ++ H2) -> length H2 < fuel ->
    bins_ok comp (replicate c [] ++ B2) -> above_empty fill (replicate c [] ++ B2) ->
    srt comp cs -> N.of_nat (length cs) = (2 ^ N.of_nat c)%N ->
    (forall n k cs' B3, n + c * length cs + wsum c B2 <= k * length cs' + wsum k B3 -> B3 = drop (k - c) B2 ->
       c <= k <= fill -> k + length B3 = length (H1 ++ H2) ->
       bins_ok comp (replicate k [] ++ B3) -> above_empty fill (replicate k [] ++ B3) ->
       (k = fill \/ hd_error B3 = Some []) -> srt comp cs' -> N.of_nat (length cs') = (2 ^ N.of_nat k)%N ->
       sim comp (concat (reverse B3) ++ cs') (concat (reverse B2) ++ cs) ->
       relinked al ((hc, cs') :: zip (H1 ++ H2) (replicate k [] ++ B3) ++ R) hf w k (Q n)) ->
    cruns (fun cmp => carry_loop cf fuel cmp (Lst (c_dflt cf) hc) (map (Lst (c_dflt cf)) (H1 ++ H2)) fill c) comp w Q.
  Proof.
    intros c. revert w hv cs H1 H2 B2 Q c. induction fuel as [|fuel IH]; intros w hv cs H1 H2 B2 Q c Hh Ho HlB Hc Hfu Hb Hab Hsc Hlc HQ; [lia|].
    assert (Hself : forall q, relinked al ((hc, cs) :: zip (H1 ++ H2) (replicate c [] ++ B2) ++ R) hf w q (Q 0) -> Q 0 q w).
    { intros q Hq. rewrite <-(heap_is_self _ _ _ Hh). apply Hq; [done|]. by rewrite (heap_is_self _ _ _ Hh). }
    simpl. destruct (decide (c = fill)) as [Heq|Hne].
    { apply cruns_ret. apply Hself. apply (HQ 0 c cs B2); [lia|by rewrite Nat.sub_diag|lia|rewrite app_length; unfold c in *; lia|done|done|by left|done|done|apply sim_refl]. }
    destruct H2 as [|h H2]; [rewrite app_nil_r in Hc; unfold c in *; lia|].
    destruct B2 as [|b B2]; [done|].
    cstep. apply (runs_bin _ _ _ h); [by apply list_lookup_middle|].
    assert (Hp : forall cs' b', (hc, cs') :: zip (H1 ++ h :: H2) (replicate c [] ++ b' :: B2) ++ R ≡ₚ
      (h, b') :: (hc, cs') :: zip H1 (replicate c []) ++ zip H2 B2 ++ R).
    { intros. rewrite zip_mid by (by rewrite replicate_length). perm_solve. }
    assert (Ho' : lists_own al ((h, b) :: (hc, cs) :: zip H1 (replicate c []) ++ zip H2 B2 ++ R) hv).
    { eapply own_perm; [|exact Ho]. apply Hp. }
    cstep. eapply runs_lst_empty; [done|exact Ho'|].
    destruct (decide (b = [])) as [->|Hbne].
    { rewrite bool_decide_true by done. apply cruns_ret. apply Hself. apply (HQ 0 c cs ([] :: B2)); [lia|by rewrite Nat.sub_diag|lia| |done|done|by right|done|done|apply sim_refl].
      rewrite app_length. simpl in *. unfold c in *. lia. }
    rewrite bool_decide_false by done.
    destruct (Hb c b) as [Hsb [?|Hlb]]; [apply list_lookup_middle; by rewrite replicate_length|done|].
    cbind. eapply (cruns_lst_merge _ al h b hc cs); [done|exact Ho'|]. intros n1 Hn1 hv1 Ho1 Hh1.
    cstep. eapply (runs_lst_swap cf _ al hc [] h (mergef comp b cs)); [exact Hh1|eapply own_perm; [|exact Ho1]; apply perm_swap|].
    intros hv2 Ho2 Hh2.
    assert (Hc' : S c = length (H1 ++ [h])) by (rewrite app_length; simpl; unfold c; lia).
    assert (Hrep : replicate (S c) ([] : list E) = replicate c [] ++ [[]]).
    { change (S c) with (1 + c). rewrite Nat.add_comm, replicate_add. done. }
    assert (Hlow : forall i x, (replicate (S c) [] ++ B2) !! i = Some x -> x = [] \/ (replicate c [] ++ b :: B2) !! i = Some x).
    { intros i x Hi. destruct (decide (i < S c)).
      - left. rewrite lookup_app_l in Hi by (by rewrite replicate_length). by apply lookup_replicate in Hi as [-> _].
      - right. rewrite lookup_app_r in Hi |- * by (rewrite replicate_length; lia). rewrite replicate_length in *.
        replace (i - c) with (S (i - S c)) by lia. done. }
    replace (H1 ++ h :: H2) with ((H1 ++ [h]) ++ H2) in * by (by rewrite <-(assoc_L (++))).
    rewrite Hc'. eapply (IH _ hv2 (mergef comp b cs) (H1 ++ [h]) H2 B2); rewrite <-?Hc'.
    - exact Hh2.
    - rewrite Hrep. rewrite <-(assoc_L (++) (replicate c [])). simpl. eapply own_perm; [|exact Ho2].
      rewrite Hp. perm_solve.
    - simpl in HlB. lia.
    - lia.
    - simpl in Hfu. lia.
    - intros i x Hi. destruct (Hlow _ _ Hi) as [->|?]; [split; [intros ?; apply lsorted_nil|by left]|by apply Hb].
    - intros i x Hf Hi. destruct (Hlow _ _ Hi) as [->|?]; [done|by eapply Hab].
    - by apply mergef_sorted.
    - pose proof (Permutation_length (mergef_perm comp b cs)) as Hl. rewrite app_length in Hl.
      rewrite Hl, Nat2N.inj_add, Hlb, Hlc. rewrite Nat2N.inj_succ, N.pow_succ_r'. lia.
    - intros n2 k cs' B3 Hn2 Hdr Hk Hlen Hb3 Hab3 Hor Hs3 Hl3 Hsim hv3 Ho3 Hh3. eapply (HQ (n1 + n2) k cs' B3); try done; [| |lia|].
      { pose proof (Permutation_length (mergef_perm comp b cs)) as Hl. rewrite app_length in Hl. rewrite Hl in Hn2.
        cbn [wsum]. rewrite Nat.mul_succ_l, Nat.mul_add_distr_l in Hn2. lia. }
      { rewrite Hdr. replace (k - c) with (S (k - S c)) by lia. done. }
      eapply sim_trans; [exact Hsim|]. rewrite reverse_cons, concat_app. simpl. rewrite app_nil_r, <-(assoc_L (++)).
      apply sim_app; [done|]. by apply mergef_stable.
  Qed.

  Lemma cruns_sort_loop fuel w al hdr xs hc hbs bss fill R hv hf al0 (Q : nat -> _ -> W -> Prop) :
    heap_is w hv hf ->
    lists_own al ((hdr, xs) :: (hc, []) :: zip hbs bss ++ R) hv ->
    xs <> [] -> length xs < fuel -> length hbs = 64 -> length bss = 64 -> fill <= 64 ->
    bins_ok comp bss -> above_empty fill bss -> (fill = 0 \/ exists b, bss !! (fill - 1) = Some b /\ b <> []) ->
    (N.of_nat (length (concat bss) + length xs) < 2 ^ 64)%N ->
    (forall n bss' fill', n + wsum 0 bss <= wsum 0 bss' -> (exists b, bss' !! (fill' - 1) = Some b /\ b <> []) ->
       length bss' = 64 -> 1 <= fill' <= 64 -> bins_ok comp bss' -> above_empty fill' bss' ->
       sim comp (concat (reverse bss')) (concat (reverse bss) ++ xs) ->
       relinked al ((hdr, []) :: (hc, []) :: zip hbs bss' ++ R) hf w fill' (Q n)) ->
    cruns (fun cmp => sort_loop cf fuel cmp (Lst al0 hdr) (Lst (c_dflt cf) hc) (map (Lst (c_dflt cf)) hbs) fill) comp w Q.
  Proof.
    revert w hv xs bss fill Q. induction fuel as [|fuel IH]; intros w hv xs bss fill Q Hh Ho Hne Hfu Hlh Hlb Hfill Hb Hab Htop Hbound HQ; [lia|].
    destruct xs as [|[x v] xs]; [done|].
    assert (Hb2 : (N.of_nat (length (concat bss)) + N.of_nat (length xs) + 1 < 2 ^ 64)%N).
    { clear -Hbound. cbn [length] in Hbound. lia. }
    assert (Ho2 : lists_own al ((hc, []) :: (hdr, (x, v) :: xs) :: zip hbs bss ++ R) hv).
    { eapply own_perm; [|exact Ho]. apply perm_swap. }
    cbn -[carry_loop]. cstep. eapply runs_begin; [done|exact Ho2|]. cstep. eapply runs_begin; [done|exact Ho|].
    cstep. eapply (runs_splice_one_other cf w al hc [] [] hdr [] x v xs); [done|exact Ho2|]. intros hv1 Ho1 Hh1. simpl in Ho1.
    cbind. rewrite map_length, Hlh.
    eapply (cruns_carry_loop _ _ al hc [(x, v)] [] hbs bss fill ((hdr, xs) :: R)).
    { exact Hh1. }
    { simpl. eapply own_perm; [|exact Ho1]. perm_solve. }
    { congruence. }
    { simpl. lia. }
    { lia. }
    { exact Hb. }
    { exact Hab. }
    { intros _. simpl. intros i j a b Hij Hi Hj. destruct i, j; simpl in *; try lia; try done. }
    { done. }
    intros n1 k cs' B3 Hn1 Hdr Hk Hlen Hb3 Hab3 Hor Hs3 Hl3 Hsim hv2 Ho3 Hh2. simpl in *.
    assert (Hlt : k < 64).
    { destruct Hsim as [Hperm _]. apply Permutation_length in Hperm. rewrite !app_length in Hperm. simpl in Hperm.
      assert (Hcr : length (concat (reverse bss)) = length (concat bss)).
      { apply Permutation_length, concat_perm. apply reverse_Permutation. }
      destruct (decide (k < 64)); [done|].
      assert (2 ^ 64 <= N.of_nat (length cs'))%N; [|lia]. rewrite Hl3. apply N.pow_le_mono_r; lia. }
    destruct B3 as [|b B3]; [simpl in Hlen; lia|].
    assert (b = []) as ->.
    { destruct Hor as [->|Hhd]; [|simpl in Hhd; congruence].
      eapply Hab3; [reflexivity|]. apply list_lookup_middle. by rewrite replicate_length. }
    destruct (split_at hbs k) as (H1 & H2 & -> & HlH); [lia|].
    destruct H2 as [|h H2]; [rewrite app_nil_r in Hlh; lia|].
    cstep. eapply runs_bin; [by apply list_lookup_middle|].
    assert (Hp : forall b', zip (H1 ++ h :: H2) (replicate k [] ++ b' :: B3) ≡ₚ (h, b') :: zip H1 (replicate k []) ++ zip H2 B3).
    { intros. rewrite zip_mid by (by rewrite replicate_length). perm_solve. }
    assert (Ho3' : lists_own al ((hc, cs') :: (h, []) :: (zip H1 (replicate k []) ++ zip H2 B3) ++ (hdr, xs) :: R) hv2).
    { eapply own_perm; [|exact Ho3]. rewrite Hp. perm_solve. }
    cstep. eapply (runs_lst_swap cf _ al hc cs' h []); [exact Hh2|exact Ho3'|]. intros hv3 Ho4 Hh3.
    set (bss' := replicate k [] ++ cs' :: B3).
    set (fill' := if decide (k = fill) then S fill else fill).
    assert (Ho4' : lists_own al ((hdr, xs) :: (hc, []) :: zip (H1 ++ h :: H2) bss' ++ R) hv3).
    { eapply own_perm; [|exact Ho4]. unfold bss'. rewrite Hp. perm_solve. }
    assert (Hlb' : length bss' = 64).
    { unfold bss'. rewrite app_length, replicate_length in *. simpl in *. lia. }
    assert (Hkf : k < fill' /\ fill' <= 64 /\ fill <= fill') by (unfold fill'; case_decide; lia).
    assert (Hlk : forall i y, bss' !! i = Some y -> (i = k /\ y = cs') \/ (i <> k /\ (replicate k [] ++ [] :: B3) !! i = Some y)).
    { intros i y Hi. unfold bss' in Hi. destruct (decide (i = k)) as [->|Hik].
      - rewrite list_lookup_middle in Hi by (by rewrite replicate_length). left. by simplify_eq.
      - right. split; [done|]. destruct (decide (i < k)).
        + by rewrite lookup_app_l in Hi |- * by (by rewrite replicate_length).
        + rewrite lookup_app_r in Hi |- * by (rewrite replicate_length; lia). rewrite replicate_length in *.
          destruct (i - k) eqn:Ei; [lia|]. done. }
    assert (Hb' : bins_ok comp bss').
    { intros i y Hi. destruct (Hlk _ _ Hi) as [[-> ->]|[_ Hi']]; [split; [done|by right]|by apply Hb3]. }
    assert (Hab' : above_empty fill' bss').
    { intros i y Hf Hi. destruct (Hlk _ _ Hi) as [[-> ->]|[_ Hi']]; [lia|]. eapply (Hab3 i); [lia|done]. }
    assert (Hsim' : sim comp (concat (reverse bss')) (concat (reverse bss) ++ [(x, v)])).
    { unfold bss'. rewrite concat_rev_replicate. rewrite reverse_cons, concat_app. simpl. rewrite app_nil_r.
      rewrite reverse_cons, concat_app in Hsim. simpl in Hsim. by rewrite app_nil_r in Hsim. }
    assert (Hpot : n1 + wsum 0 bss <= wsum 0 bss').
    { unfold bss'. rewrite wsum_empty, Nat.add_0_r. simpl in Hn1 |- *. lia. }
    assert (Htop' : exists b, bss' !! (fill' - 1) = Some b /\ b <> []).
    { assert (Hcs : cs' <> []). { intros ->. simpl in Hl3. pose proof (N.pow_nonzero 2 (N.of_nat k)). lia. }
      destruct (decide (fill' - 1 = k)) as [->|Hk1].
      - exists cs'. split; [|done]. unfold bss'. apply list_lookup_middle. by rewrite replicate_length.
      - assert (Hff : fill' = fill) by (unfold fill' in *; case_decide; [simpl in Hk1; lia|done]).
        destruct Htop as [->|(b & Hb1 & Hb2')]; [lia|]. exists b. split; [|done]. rewrite Hff. unfold bss'.
        rewrite lookup_app_r by (rewrite replicate_length; lia). rewrite replicate_length.
        rewrite Nat.sub_0_r in Hdr.
        assert (Hb3' : ([] :: B3) !! (fill - 1 - k) = Some b).
        { rewrite Hdr, lookup_drop. rewrite <-Hb1. f_equal. lia. }
        destruct (fill - 1 - k) eqn:Ek; [lia|]. done. }
    cstep. eapply runs_lst_empty; [exact Hh3|exact Ho4'|].
    destruct xs as [|[y u] xs]; simpl.
    - apply cruns_ret. apply (HQ _ bss' fill'); try done; lia.
    - eapply (IH _ hv3 ((y, u) :: xs) bss' fill'); try done; [simpl in *; lia|lia|by right| |].
      { destruct Hsim' as [Hperm _]. apply Permutation_length in Hperm. rewrite app_length in Hperm. simpl in Hperm.
        assert (Hcr : forall l : list (list E), length (concat (reverse l)) = length (concat l)).
        { intros. apply Permutation_length, concat_perm. apply reverse_Permutation. }
        rewrite !Hcr in Hperm. rewrite Hperm. clear -Hb2. cbn [length] in *. lia. }
      intros n2 bss'' fill'' Hn2 Ht'' Hl'' Hf'' Hb'' Ha'' Hs'' hv4 Ho5 Hh4. apply (HQ _ bss'' fill''); try done; [lia|].
      eapply sim_trans; [exact Hs''|]. rewrite (cons_app_1 (x, v)), (assoc_L (++)). by apply sim_app.
  Qed.

  Lemma cruns_fold_loop fuel w al H1 h H2 b B2 fill R hv hf (Q : nat -> _ -> W -> Prop) :
    let c := length H1 in
    heap_is w hv hf ->
    lists_own al (zip (H1 ++ h :: H2) (replicate c [] ++ b :: B2) ++ R) hv ->
    length H2 = length B2 -> S c <= fill <= length (H1 ++ h :: H2) -> length H2 < fuel ->
    srt comp b -> (forall x, x ∈ B2 -> srt comp x) -> (forall i x, fill <= S c + i -> B2 !! i = Some x -> x = []) ->
    (forall n h' H3 H4 b', n <= (fill - S c) * length b + fsum (fill - S c) B2 -> H1 ++ h :: H2 = H3 ++ h' :: H4 -> S (length H3) = fill -> srt comp b' ->
       sim comp b' (concat (reverse B2) ++ b) ->
       relinked al ((h', b') :: zip (H3 ++ H4) (replicate (length (H3 ++ H4)) []) ++ R) hf w tt (Q n)) ->
    cruns (fun cmp => fold_loop cf fuel cmp (map (Lst (c_dflt cf)) (H1 ++ h :: H2)) fill (S c)) comp w Q.
  Proof.
    intros c. revert w hv H1 h H2 b B2 Q c. induction fuel as [|fuel IH]; intros w hv H1 h H2 b B2 Q c Hh Ho Hl Hf Hfu Hsb HsB Hab HQ; [lia|].
    cbn -[bin Nat.sub]. destruct (decide (S c = fill)) as [Heq|Hne].
    - apply cruns_ret. rewrite <-(heap_is_self _ _ _ Hh).
      assert (HB2 : B2 = replicate (length H2) []).
      { rewrite Hl. apply list_eq. intros i. destruct (B2 !! i) as [x|] eqn:Ei.
        - assert (x = []) as -> by (eapply (Hab i); [lia|done]). symmetry. apply lookup_replicate. split; [done|].
          by eapply lookup_lt_Some.
        - symmetry. apply lookup_ge_None_2. rewrite replicate_length. by apply lookup_ge_None_1. }
      apply (HQ 0 h H1 H2 b); try done; [lia|..].
      + rewrite HB2, reverse_replicate, concat_replicate_nil. apply sim_refl.
      + eapply own_perm; [|exact Ho]. rewrite zip_mid by (by rewrite replicate_length). rewrite HB2.
        rewrite app_length, replicate_add, zip_with_app by (by rewrite replicate_length).
        fold c. perm_solve.
      + by rewrite (heap_is_self _ _ _ Hh).
    - destruct H2 as [|h2 H2]; [rewrite app_length in Hf; simpl in Hf; unfold c in *; lia|].
      destruct B2 as [|b2 B2]; [done|].
      cstep. eapply (runs_bin _ _ _ h2).
      { replace (H1 ++ h :: h2 :: H2) with ((H1 ++ [h]) ++ h2 :: H2) by (by rewrite <-(assoc_L (++))).
        apply list_lookup_middle. rewrite app_length; simpl; unfold c; lia. }
      cstep. eapply (runs_bin _ _ _ h).
      { apply list_lookup_middle. unfold c. lia. }
      assert (Hp : forall x y, zip (H1 ++ h :: h2 :: H2) (replicate c [] ++ x :: y :: B2) ++ R ≡ₚ
        (h2, y) :: (h, x) :: zip H1 (replicate c []) ++ zip H2 B2 ++ R).
      { intros. rewrite zip_mid by (by rewrite replicate_length). simpl. perm_solve. }
      cbind. eapply (cruns_lst_merge _ al h2 b2 h b); [done|eapply own_perm; [apply Hp|exact Ho]|].
      intros n1 Hn1 hv1 Ho1 Hh1.
      assert (Hc' : S c = length (H1 ++ [h])) by (rewrite app_length; simpl; unfold c; lia).
      assert (Hrep : replicate (S c) ([] : list E) = replicate c [] ++ [[]]).
      { change (S c) with (1 + c). rewrite Nat.add_comm, replicate_add. done. }
      assert (HH : H1 ++ h :: h2 :: H2 = (H1 ++ [h]) ++ h2 :: H2) by (by rewrite <-(assoc_L (++))).
      rewrite HH. rewrite HH in Hf. rewrite Hc'.
      eapply (IH _ hv1 (H1 ++ [h]) h2 H2 (mergef comp b2 b) B2); rewrite <-?Hc'.
      + exact Hh1.
      + rewrite Hrep. rewrite <-(assoc_L (++) (replicate c [])). simpl. rewrite <-HH. eapply own_perm; [|exact Ho1]. by rewrite Hp.
      + simpl in Hl. lia.
      + lia.
      + simpl in Hfu. lia.
      + apply mergef_sorted; [apply HsB; set_solver|done].
      + intros x Hx. apply HsB. set_solver.
      + intros i x Hi Hx. apply (Hab (S i)); [lia|done].
      + intros n2 h' H3 H4 b' Hn2 Heq3 Hl3 Hs' Hsim hv2 Ho2 Hh2. apply (HQ (n1 + n2) h' H3 H4 b'); try done; [|by rewrite HH|].
        { pose proof (Permutation_length (mergef_perm comp b2 b)) as Hlm. rewrite app_length in Hlm. rewrite Hlm in Hn2.
          cbn [fsum]. replace (fill - S (S c)) with (fill - S c - 1) in Hn2 by lia.
          destruct (fill - S c) as [|f] eqn:Ef; [lia|]. rewrite Nat.sub_succ, Nat.sub_0_r in *. nia. }
        eapply sim_trans; [exact Hsim|]. rewrite reverse_cons, concat_app. simpl. rewrite app_nil_r, <-(assoc_L (++)).
        apply sim_app; [done|]. apply mergef_stable. apply HsB. set_solver.
  Qed.

  Lemma cruns_lst_sort w al hdr xs R hv hf al0 (Q : nat -> _ -> W -> Prop) :
    heap_is w hv hf -> lists_own al ((hdr, xs) :: R) hv -> (N.of_nat (length xs) < 2 ^ 64)%N ->
    (forall n ys, n <= length xs * (Nat.log2 (length xs) + 1) -> srt comp ys -> sim comp ys xs ->
       relinked al ((hdr, ys) :: R) hf w tt (Q n)) ->
    cruns (fun cmp => lst_sort cf cmp (Lst al0 hdr)) comp w Q.
  Proof.
    intros Hh Ho Hlen HQ.
    assert (Htriv : length xs <= 1 -> Q 0 tt w).
    { intros Hl. rewrite <-(heap_is_self _ _ _ Hh). apply (HQ 0 xs); [lia|by apply srt_short|apply sim_refl|done|].
      by rewrite (heap_is_self _ _ _ Hh). }
    pose proof (own_link_at _ _ [] xs _ _ Ho) as [Hn _]. simpl in Hn.
    unfold lst_sort. cbn [l_hdr]. cstep. eapply runs_get_next; [done..|].
    destruct xs as [|[x v] xs]; simpl hdx in *.
    { destruct (decide (hdr = hdr)); [|done]. apply cruns_ret. apply Htriv. simpl; lia. }
    destruct (decide (x = hdr)) as [Hxh|_]; [exfalso; revert Hxh; by eapply (own_hdr_ne _ _ [])|].
    pose proof (own_link_at _ hdr [(x, v)] xs R _ Ho) as [Hnn _]. simpl in Hnn.
    cstep. eapply runs_get_next; [done..|]. simpl l_hdr.
    destruct xs as [|[y u] xs].
    { simpl hdx. destruct (decide (hdr = hdr)); [|done]. apply cruns_ret. apply Htriv. simpl; lia. }
    simpl hdx. destruct (decide (y = hdr)) as [Hyh|_]; [by destruct (own_hdr_ne al hdr [(x, v)] y u xs R hv Ho)|]. clear Htriv.
    set (l0 := (x, v) :: (y, u) :: xs) in *.
    cstep. eapply runs_lst_new; [done..|]. intros hc hv1 _ Ho1 Hh1.
    cstep. eapply runs_new_lists; [done..|]. intros hbs Hlh hv2 Ho2 Hh2.
    assert (Ho2' : lists_own al ((hdr, l0) :: (hc, []) :: zip hbs (replicate 64 []) ++ R) hv2).
    { eapply own_perm; [|exact Ho2]. perm_solve. }
    cstep. eapply runs_heap_fuel; [done|exact Ho2'|]. intros fuel Hfu.
    cbind. eapply (cruns_sort_loop fuel _ al hdr l0 hc hbs (replicate 64 []) 0 R hv2 hf al0).
    { exact Hh2. } { exact Ho2'. } { done. } { lia. } { done. } { done. } { lia. }
    { intros i b Hi. apply lookup_replicate in Hi as [-> _]. split; [apply srt_short; simpl; lia|by left]. }
    { intros i b _ Hi. by apply lookup_replicate in Hi as [-> _]. }
    { by left. }
    { rewrite concat_replicate_nil. done. }
    intros n1 bss fill Hn1 Htop Hlb Hf Hb Hab Hsim hv3 Ho3 Hh3.
    rewrite reverse_replicate, concat_replicate_nil in Hsim. simpl in Hsim.
    assert (Hfill : fill <= Nat.log2 (length l0) + 1).
    { destruct Htop as (b & Hb1 & Hb2). destruct (Hb _ _ Hb1) as [_ [?|Hlb1]]; [done|].
      assert (Hp2 : length b = 2 ^ (fill - 1)) by (apply Nat2N.inj; rewrite Hlb1, Nat2N.inj_pow; done).
      assert (Hle : length b <= length l0).
      { destruct Hsim as [Hperm _]. apply Permutation_length in Hperm. rewrite <-Hperm.
        rewrite (concat_perm (reverse bss) bss) by apply reverse_Permutation.
        apply elem_of_list_split_length in Hb1 as (l1 & l2 & -> & _). rewrite concat_app. simpl. rewrite !app_length. lia. }
      rewrite Hp2 in Hle. apply Nat.log2_le_pow2 in Hle; [lia|simpl; lia]. }
    assert (Hlen0 : length (concat bss) = length l0).
    { destruct Hsim as [Hperm _]. apply Permutation_length in Hperm. rewrite <-Hperm.
      apply Permutation_length, concat_perm. symmetry. apply reverse_Permutation. }
    destruct hbs as [|h hbs]; [done|]. destruct bss as [|b bss]; [done|].
    rewrite map_length, Hlh.
    cbind. eapply (cruns_fold_loop 65 _ al [] h hbs b bss fill ((hdr, []) :: (hc, []) :: R)).
    { exact Hh3. }
    { simpl. eapply own_perm; [|exact Ho3]. simpl. perm_solve. }
    { simpl in *. congruence. }
    { simpl in *. lia. }
    { simpl in *. lia. }
    { by apply (Hb 0 b). }
    { intros z [i Hi]%elem_of_list_lookup. by apply (Hb (S i) z). }
    { intros i z Hi Hz. apply (Hab (S i) z); [done|done]. }
    intros n2 h' H3 H4 ys Hn2 Heq Hl3 Hs' Hsim' hv4 Ho4 Hh4.
    rewrite reverse_cons, concat_app in Hsim. simpl in Hsim. rewrite app_nil_r in Hsim.
    simpl app in Heq. rewrite Heq in *.
    cstep. eapply (runs_bin _ _ _ h'); [apply list_lookup_middle; lia|].
    cstep. eapply (runs_lst_swap cf _ al hdr [] h' ys (zip (H3 ++ H4) (replicate (length (H3 ++ H4)) []) ++ (hc, []) :: R)); [exact Hh4|eapply own_perm; [|exact Ho4]; perm_solve|].
    intros hv5 Ho5 Hh5.
    cstep. eapply (runs_destroy_lists _ _ al ((hdr, ys) :: (hc, []) :: R)); [exact Hh5| |].
    { eapply own_perm; [|exact Ho5].
      assert (Hm : forall l : list addr, map (fun o => (l_hdr o, [] : list E)) (rev (map (Lst (c_dflt cf)) l)) ≡ₚ zip l (replicate (length l) [])).
      { intros l. rewrite <-Permutation_rev, map_map. simpl. induction l as [|z l IH]; [done|]. simpl. by f_equiv. }
      assert (Hz : zip (H3 ++ h' :: H4) (replicate (length (H3 ++ h' :: H4)) ([] : list E)) =
        zip H3 (replicate (length H3) []) ++ (h', []) :: zip H4 (replicate (length H4) [])).
      { rewrite app_length, replicate_add. simpl. by rewrite zip_mid by (by rewrite replicate_length). }
      rewrite Hm.
      rewrite Hz, app_length, replicate_add, zip_with_app by (by rewrite replicate_length). perm_solve. }
    intros hv6 Ho6 Hh6.
    apply cruns_const. eapply (runs_lst_destroy _ al hc []); [exact Hh6|eapply own_perm; [|exact Ho6]; apply perm_swap|by right|].
    intros hv7 Ho7 Hh7. apply (HQ (n1 + (n2 + 0)) ys); [|done| |done|done].
    { pose proof (sums_le 1 (fill - 1) bss) as Hsum.
      assert (Hse : forall j b, fill - 1 < j -> bss !! j = Some b -> b = []).
      { intros j b0 Hj Hb0. apply (Hab (S j) b0); [lia|done]. }
      specialize (Hsum Hse). replace (wsum 0 (replicate 64 [])) with 0 in Hn1 by done.
      cbn [wsum] in Hn1. cbn [concat] in Hlen0. rewrite app_length in Hlen0.
      replace (1 + (fill - 1)) with fill in Hsum by lia.
      assert (n1 + n2 <= fill * length l0); [|nia].
      rewrite <-Hlen0. cbn [length] in Hn2. nia. }
    eapply sim_trans; [exact Hsim'|exact Hsim].
  Qed.
End count.
