(** * Containers handed from thread to thread: rounds of threads

    The work of a program is divided into rounds.  In a round several threads
    run at the same time, each with containers of its own; they take turns
    between any two accesses to memory (ConcModel.v).  When all of them have
    finished, the containers go on to the threads of the next round. *)
From Verif Require Import Conc PropConc.

(** ** Parts that are separate stay separate *)

Section apart.
  Context {C A : Type}.
  Definition apart (gs : list (gmap addr C)) : Prop :=
    forall i k g g', i <> k -> gs !! i = Some g -> gs !! k = Some g' -> g ##ₘ g'.
  Definition writer (a : A) : job C A := Job (PTickCtor (PRet a)) ∅ [].
  Lemma apart_parts (a : A) gs : apart gs <-> parts_ok (replicate (length gs) (writer a)) gs.
  Proof.
    split.
    - intros Hd. split; [by rewrite replicate_length|]. intros i k j j' g g' Hne _ _ Hg Hg'. left. by apply (Hd i k).
    - intros [_ Hp] i k g g' Hne Hg Hg'. destruct (Hp i k (writer a) (writer a) g g') as [?|[[] _]]; try done;
        apply lookup_replicate; (split; [done|by eapply lookup_lt_Some]).
  Qed.
  Lemma apart_change (a : A) f (j : job C A) H gs i g H' g' :
    apart gs -> consists H f gs -> gs !! i = Some g -> change j H g H' g' -> apart (<[i := g']> gs).
  Proof.
    intros Hd Hc Hg Hch. apply (apart_parts a) in Hd. apply (apart_parts a). rewrite insert_length.
    eapply (parts_change f _ H gs i (writer a) g H' g' Hd Hc); [apply lookup_replicate; split; [done|by eapply lookup_lt_Some]|done|].
    destruct Hch as [?|[_ ?]]; [by left|right]. by split; [intros []|].
  Qed.
  Lemma crun_apart f (js : list (job C A)) sched : forall s gs,
    Forall job_ok js -> sinv f js s gs -> apart gs -> exists s' gs', crun sched s = inl s' /\ sinv f js s' gs' /\ apart gs'.
  Proof.
    induction sched as [|i sched IH]; intros s gs Hok Hs Hd; simpl; [eauto|].
    assert (exists s' gs', csstep i s = inl s' /\ sinv f js s' gs' /\ apart gs') as (s1 & gs1 & -> & Hs1 & Hd1); [|eauto].
    destruct Hs as (Hp & Hc & Hl & Ht). unfold csstep. destruct (cs_thr s !! i) as [t|] eqn:Ei; [|by exists s, gs].
    assert (Hi : i < length js) by (rewrite <-Hl; by eapply lookup_lt_Some).
    destruct (lookup_lt_is_Some_2 js i Hi) as [j Hj]. destruct (lookup_lt_is_Some_2 gs i) as [g Hg]; [by rewrite (proj1 Hp)|].
    assert (Hokj : job_ok j) by (rewrite Forall_lookup in Hok; eauto).
    destruct (cstep_ok j (cs_mem s) t g) as (H' & t' & g' & -> & Ht' & Hch); [done|eauto|eapply Hc, elem_of_list_lookup_2, Hg|].
    destruct (parts_change f js _ gs i j g H' g' Hp Hc Hj Hg Hch) as [Hp' Hc'].
    destruct (Hokj (j_orc j)) as (a & _ & _); [done|].
    eexists _, _. split; [reflexivity|]. split; [|by eapply apart_change].
    split_and!; [exact Hp'|exact Hc'|by simpl; rewrite insert_length|].
    simpl. intros k j1 t1 g1 Hj1 Ht1 Hg1. destruct (decide (k = i)) as [->|Hk].
    - rewrite list_lookup_insert in Ht1 by (by eapply lookup_lt_Some). rewrite list_lookup_insert in Hg1 by (by eapply lookup_lt_Some). by simplify_eq.
    - rewrite list_lookup_insert_ne in Ht1 by done. rewrite list_lookup_insert_ne in Hg1 by done. eauto.
  Qed.
End apart.

(** ** Specification *)

Section rounds.
  (** [S]: the container objects a thread works with; [X]: their contents;
      [B]: what the thread is to do; [R]: what it reports. *)
  Context {C S X B R : Type}.
  Notation mem := (gmap addr C).
  (** [Inv s x g]: the part [g] of the memory is that of the containers [s]
      with contents [x].  [spec b x r y]: doing [b] with contents [x] may report
      [r] and leave [y]. *)
  Context (Inv : S -> X -> mem -> Prop) (legal : B -> Prop) (call : B -> S -> M C (S * R)) (spec : B -> X -> R -> X -> Prop).
  (** [deal H ms ms']: the containers of [ms] in the memory [H], dealt out anew, are [ms'];
      [deal_spec]: what this does to the contents. *)
  Context (deal : mem -> list (S * gset addr) -> list (S * gset addr) -> Prop).
  Context (deal_spec : list S -> list X -> list S -> list X -> Prop).

  (** The memory [H] consists of [f] and of the containers of the members, in
      separate parts; a member comes with the addresses of its part. *)
  Definition held (H f : mem) (ms : list (S * gset addr)) (xs : list X) : Prop :=
    exists gs, consists H f gs /\ length gs = length ms /\ length xs = length ms /\
      apart gs /\
      (forall i m x g, ms !! i = Some m -> xs !! i = Some x -> gs !! i = Some g -> m.2 = dom g /\ Inv m.1 x g).

  (** The threads of a round, and what they leave. *)
  Record task := Task { k_st : S; k_own : gset addr; k_call : B; k_orc : list event; k_prog : prog C (S * R) }.
  Record rest := Rest { l_st : S; l_own : gset addr; l_ans : R }.
  Definition task_ok (k : task) : Prop := legal (k_call k) /\ presents (k_prog k) (call (k_call k) (k_st k)).
  Definition begin (H : mem) (ks : list task) : csys C (S * R) :=
    CSys H ((fun k => CThr (k_prog k) (k_own k) ∅ (k_orc k) None 0 0) <$> ks).
  (** All threads have finished and their local objects are gone. *)
  Definition ended (s : csys C (S * R)) (ls : list rest) : Prop :=
    Forall2 (fun t l => finished t (l_st l, l_ans l) /\ ct_stack t = ∅ /\ ct_own t = l_own l) (cs_thr s) ls.

  Inductive event_ := Round (rd : list (B * R)) | Deal (ss ss' : list S).
  Inductive rounds : mem -> list (S * gset addr) -> list event_ -> mem -> list (S * gset addr) -> Prop :=
  | rounds_nil H ms : rounds H ms [] H ms
  | rounds_round H ks sched s' ls tr H2 ms2 :
      Forall task_ok ks -> crun sched (begin H ks) = inl s' -> ended s' ls ->
      rounds (cs_mem s') ((fun l => (l_st l, l_own l)) <$> ls) tr H2 ms2 ->
      rounds H ((fun k => (k_st k, k_own k)) <$> ks) (Round (zip (k_call <$> ks) (l_ans <$> ls)) :: tr) H2 ms2
  | rounds_deal H ms ms' tr H2 ms2 :
      deal H ms ms' -> rounds H ms' tr H2 ms2 -> rounds H ms (Deal ms.*1 ms'.*1 :: tr) H2 ms2.

  (** The same history on the contents alone. *)
  Definition round_spec (rd : list (B * R)) (xs ys : list X) : Prop :=
    length xs = length rd /\ length ys = length rd /\
    forall i b r x y, rd !! i = Some (b, r) -> xs !! i = Some x -> ys !! i = Some y -> spec b x r y.
  Fixpoint rounds_spec (tr : list event_) (xs xs' : list X) : Prop :=
    match tr with
    | [] => xs' = xs
    | Round rd :: tr => exists ys, round_spec rd xs ys /\ rounds_spec tr ys xs'
    | Deal ss ss' :: tr => exists ys, deal_spec ss xs ss' ys /\ rounds_spec tr ys xs'
    end.

  (** ** Proof *)
  Context (call_ok : forall b s x g o, legal b -> Inv s x g ->
    runs (call b s) (World g o None 0 0) (fun r w' => exists y, spec b x r.2 y /\ Inv r.1 y (w_heap w'))).
  Context (deal_ok : forall H f ms xs ms', held H f ms xs -> deal H ms ms' -> exists ys, held H f ms' ys /\ deal_spec ms.*1 xs ms'.*1 ys).

  Lemma held_jobs H f ks xs : Forall task_ok ks -> held H f ((fun k => (k_st k, k_own k)) <$> ks) xs ->
    exists js : list (job C (S * R)), length js = length ks /\ length xs = length ks /\ begin H ks = start H js /\ consists H f (j_mem <$> js) /\
      (forall i k j j', i <> k -> js !! i = Some j -> js !! k = Some j' -> j_mem j ##ₘ j_mem j') /\ Forall job_ok js /\
      forall i j k x, js !! i = Some j -> ks !! i = Some k -> xs !! i = Some x ->
        j_prog j = k_prog k /\ j_orc j = k_orc k /\ Inv (k_st k) x (j_mem j) /\ task_ok k.
  Proof.
    intros Hks (gs & Hc & Hlg & Hlx & Hd & Hinv). rewrite fmap_length in Hlg, Hlx.
    set (js := zip_with (fun k g => Job (k_prog k) g (k_orc k)) ks gs).
    assert (Hlj : length js = length ks) by (unfold js; rewrite zip_with_length; lia).
    assert (j_mem <$> js = gs) as Hjm.
    { apply list_eq. intros i. unfold js. rewrite list_lookup_fmap, lookup_zip_with.
      destruct (ks !! i) as [k|] eqn:Ek; simpl; [by destruct (gs !! i)|]. symmetry. apply lookup_ge_None. apply lookup_ge_None in Ek. lia. }
    assert (forall i j, js !! i = Some j -> exists k g x, ks !! i = Some k /\ gs !! i = Some g /\ xs !! i = Some x /\ j = Job (k_prog k) g (k_orc k) /\
      k_own k = dom g /\ Inv (k_st k) x g /\ task_ok k) as Hj.
    { intros i j Hi. apply lookup_zip_with_Some in Hi as (k & g & -> & Hk & Hg).
      destruct (lookup_lt_is_Some_2 xs i) as [x Hx]; [rewrite Hlx; by eapply lookup_lt_Some|]. exists k, g, x. split_and!; try done.
      - by apply (Hinv i (k_st k, k_own k) x g); [rewrite list_lookup_fmap, Hk|..].
      - by apply (Hinv i (k_st k, k_own k) x g); [rewrite list_lookup_fmap, Hk|..].
      - rewrite Forall_lookup in Hks. eauto. }
    exists js. split; [done|]. split; [done|]. split; [|split; [by rewrite Hjm|split; [|split]]].
    - unfold begin, start. f_equal. apply list_eq. intros i. rewrite !list_lookup_fmap.
      destruct (js !! i) as [j|] eqn:Ej; [|rewrite (lookup_ge_None_2 ks); [done|]; apply lookup_ge_None in Ej; lia].
      destruct (Hj i j Ej) as (k & g & x & -> & _ & _ & -> & Ho & _). simpl. by rewrite Ho.
    - intros i k j j' Hne Hi Hk. apply (Hd i k); [done|rewrite <-Hjm, list_lookup_fmap, Hi|rewrite <-Hjm, list_lookup_fmap, Hk]; done.
    - apply Forall_lookup. intros i j Hi o _. destruct (Hj i j Hi) as (k & g & x & _ & _ & _ & -> & _ & HI & Hleg & Hp). unfold alone. simpl.
      rewrite Hp. destruct (call_ok (k_call k) (k_st k) x g o Hleg HI) as (a & w & Hr & _). by exists a, w.
    - intros i j k x Hi Hk Hx. destruct (Hj i j Hi) as (k' & g & x' & Hk' & _ & Hx' & -> & _ & HI & Hok). by simplify_eq.
  Qed.

  Lemma round_runs H f ks xs sched : Forall task_ok ks -> held H f ((fun k => (k_st k, k_own k)) <$> ks) xs ->
    exists s', crun sched (begin H ks) = inl s' /\
      forall ls, ended s' ls -> exists ys, held (cs_mem s') f ((fun l => (l_st l, l_own l)) <$> ls) ys /\
        round_spec (zip (k_call <$> ks) (l_ans <$> ls)) xs ys.
  Proof.
    intros Hks Hh. destruct (held_jobs H f ks xs Hks Hh) as (js & Hlj & Hlx & Hst & Hc & Hd & Hok & Hj). rewrite Hst.
    destruct (crun_apart f js sched (start H js) (j_mem <$> js) Hok) as (s' & gs & Hr & (Hp & Hc' & Hl & Ht) & Hap).
    { apply start_inv; [done|]. intros i k j j' ? ? ?. left. by apply (Hd i k). }
    { intros i k g g' Hne Hi Hk. rewrite list_lookup_fmap in Hi, Hk. destruct (js !! i) eqn:Ei; [|done]. destruct (js !! k) eqn:Ek; [|done].
      simplify_eq/=. by apply (Hd i k). }
    exists s'. split; [done|]. intros ls He. pose proof (Forall2_length _ _ _ He) as Hll.
    assert (forall n, n <= length ks -> exists ys, length ys = n /\ forall i y, ys !! i = Some y ->
      exists k l x t g, ks !! i = Some k /\ ls !! i = Some l /\ xs !! i = Some x /\ cs_thr s' !! i = Some t /\ gs !! i = Some g /\
        l_own l = dom g /\ Inv (l_st l) y g /\ spec (k_call k) x (l_ans l) y) as Hys.
    { induction n as [|n IH]; intros Hn; [exists []; split; [done|]; intros i y Hi; by rewrite lookup_nil in Hi|].
      destruct IH as (ys & Hly & Hys); [lia|].
      destruct (lookup_lt_is_Some_2 ks n) as [k Hk]; [lia|]. destruct (lookup_lt_is_Some_2 ls n) as [l Hln]; [lia|].
      destruct (lookup_lt_is_Some_2 xs n) as [x Hx]; [lia|]. destruct (lookup_lt_is_Some_2 js n) as [j Hjn]; [lia|].
      destruct (lookup_lt_is_Some_2 (cs_thr s') n) as [t Htn]; [lia|]. destruct (lookup_lt_is_Some_2 gs n) as [g Hg]; [rewrite (proj1 Hp); lia|].
      destruct (Ht n j t g Hjn Htn Hg) as (Hown & _ & _ & log & _ & Hrep).
      destruct (Forall2_lookup_lr _ _ _ _ _ _ He Htn Hln) as (Hf & Hs & Ho).
      destruct (Hj n j k x Hjn Hk Hx) as (Hjp & Hjo & HI & Hleg & Hpr).
      specialize (Hrep []). unfold alone in Hrep. rewrite Hjp, Hpr, Hs in Hrep. unfold finished in Hf. rewrite Hf in Hrep. simpl in Hrep.
      destruct (call_ok (k_call k) (k_st k) x (j_mem j) (log ++ []) Hleg HI) as (a & w & Hrun & y & Hsp & HIy).
      rewrite (left_id_L ∅ (∪)) in Hrep. unfold ret in Hrep.
      assert (Done a w = Done (l_st l, l_ans l) (World g [] (ct_err t) (ct_allocs t) (ct_ctors t))) as [= -> ->] by (exact (eq_trans (eq_sym Hrun) Hrep)).
      exists (ys ++ [y]). split; [rewrite app_length; simpl; lia|]. intros i z Hi. destruct (decide (i < n)) as [Hin|Hin].
      - rewrite lookup_app_l in Hi by lia. by apply Hys.
      - assert (i = n) as -> by (apply lookup_lt_Some in Hi; rewrite app_length in Hi; simpl in Hi; lia).
        rewrite lookup_app_r, Hly, Nat.sub_diag in Hi by lia. injection Hi as <-. exists k, l, x, t, g. split_and!; try done.
        rewrite <-Ho, Hown, Hs. by rewrite (left_id_L ∅ (∪)). }
    destruct (Hys (length ks)) as (ys & Hly & Hy); [lia|]. exists ys. split.
    - exists gs. split_and!; [done|rewrite fmap_length, (proj1 Hp); lia|rewrite fmap_length; lia|..].
      + done.
      + intros i m y g Hm Hyi Hg. destruct (Hy i y Hyi) as (k & l & x & t & g' & Hk & Hli & Hx & Hti & Hg' & Ho & HI & _).
        rewrite list_lookup_fmap, Hli in Hm. by simplify_eq/=.
    - split_and!; [rewrite zip_with_length, !fmap_length; lia..|]. intros i b r x y Hbr Hx Hyi.
      destruct (Hy i y Hyi) as (k & l & x' & t & g' & Hk & Hli & Hx' & _ & _ & _ & _ & Hsp).
      apply lookup_zip_with_Some in Hbr as (b' & r' & [= -> ->] & Hb & Hr'). rewrite list_lookup_fmap, Hk in Hb. rewrite list_lookup_fmap, Hli in Hr'. by simplify_eq/=.
  Qed.

  Lemma round_ends H f ks xs sched : Forall task_ok ks -> held H f ((fun k => (k_st k, k_own k)) <$> ks) xs -> fair (length ks) sched ->
    exists n s', crun (sched <$> seq 0 n) (begin H ks) = inl s' /\ forall t, t ∈ cs_thr s' -> exists a, finished t a.
  Proof.
    intros Hks Hh Hf. destruct (held_jobs H f ks xs Hks Hh) as (js & Hlj & Hlx & -> & Hc & Hd & Hok & Hj).
    apply (C80_ends _ _ H f js); [done| |done|by rewrite Hlj]. intros i k j j' ? ? ?. left. by apply (Hd i k).
  Qed.

  Lemma rounds_ok H f ms xs tr H2 ms2 : rounds H ms tr H2 ms2 -> held H f ms xs ->
    exists xs2, held H2 f ms2 xs2 /\ rounds_spec tr xs xs2.
  Proof.
    intros Hr. revert xs. induction Hr as [|H ks sched s' ls tr H2 ms2 Hks Hrun He _ IH|H ms ms' tr H2 ms2 Hd _ IH]; intros xs Hh.
    - by exists xs.
    - destruct (round_runs H f ks xs sched Hks Hh) as (s1 & Hrun' & Hend). rewrite Hrun in Hrun'. injection Hrun' as <-.
      destruct (Hend ls He) as (ys & Hh' & Hsp). destruct (IH ys Hh') as (zs & Hz & Hsz). exists zs. split; [done|]. simpl. eauto.
    - destruct (deal_ok H f ms xs ms' Hh Hd) as (ys & Hh' & Hsp). destruct (IH ys Hh') as (zs & Hz & Hsz). exists zs. split; [done|]. simpl. eauto.
  Qed.
End rounds.

Section union.
  Context {C : Type}.
  Notation mem := (gmap addr C).
  Definition gunion (gs : list mem) : mem := foldr (∪) ∅ gs.
  Lemma apart_cons (g : mem) gs : apart (g :: gs) <-> apart gs /\ g ##ₘ gunion gs.
  Proof.
    split.
    - intros Ha. assert (apart gs) as Ha'.
      { intros i k x y Hne Hx Hy. apply (Ha (S i) (S k)); [lia|done..]. }
      split; [done|]. assert (forall x, x ∈ gs -> g ##ₘ x) as Hx.
      { intros x [k Hk]%elem_of_list_lookup. by apply (Ha 0 (S k)). }
      clear Ha Ha'. induction gs as [|x gs IH]; simpl; [apply map_disjoint_empty_r|]. apply map_disjoint_union_r. split; [apply Hx; left|].
      apply IH. intros y Hy. apply Hx. by right.
    - intros [Ha Hd]. assert (forall x, x ∈ gs -> g ##ₘ x) as Hx.
      { clear Ha. induction gs as [|x gs IH]; intros y Hy; [by apply elem_of_nil in Hy|]. simpl in Hd. apply map_disjoint_union_r in Hd as [Hd1 Hd2].
        apply elem_of_cons in Hy as [->|Hy]; [done|]. by apply IH. }
      intros [|i] [|k] x y Hne Hi Hk; simpl in *; [done|..].
      + simplify_eq. apply Hx. by eapply elem_of_list_lookup_2.
      + simplify_eq. symmetry. apply Hx. by eapply elem_of_list_lookup_2.
      + apply (Ha i k); [lia|done..].
  Qed.
  Lemma gunion_lookup gs a c : apart gs -> gunion gs !! a = Some c <-> exists g, g ∈ gs /\ g !! a = Some c.
  Proof.
    induction gs as [|g gs IH]; simpl; intros Ha.
    - rewrite lookup_empty. split; [done|]. intros (g & Hg%elem_of_nil & _). done.
    - apply apart_cons in Ha as [Ha Hd]. rewrite lookup_union_Some, (IH Ha) by done. split.
      + intros [Hg|(x & Hx & Hxa)]; [exists g; split; [left|done]|exists x; split; [by right|done]].
      + intros (x & [->|Hx]%elem_of_cons & Hxa); [by left|right; eauto].
  Qed.
  Lemma consists_regroup (H f : mem) gs hs : apart gs -> apart hs -> gunion gs = gunion hs -> consists H f gs -> consists H f hs.
  Proof.
    intros Hg Hh He (Hf & Hin & Hcov). assert (forall a c, (exists g, g ∈ gs /\ g !! a = Some c) <-> exists g, g ∈ hs /\ g !! a = Some c) as Heq.
    { intros a c. by rewrite <-!gunion_lookup, He by done. }
    split_and!; [done|..].
    - intros h Hhs. split.
      + apply map_subseteq_spec. intros a c Hc. destruct (proj2 (Heq a c)) as (g & Hgs & Hga); [eauto|]. destruct (Hin g Hgs). by eapply lookup_weaken.
      + apply map_disjoint_spec. intros a c1 c2 H1 H2. destruct (proj2 (Heq a c2)) as (g & Hgs & Hga); [eauto|]. destruct (Hin g Hgs) as [_ Hd].
        rewrite map_disjoint_spec in Hd. eauto.
    - intros a Ha. destruct (Hcov a Ha) as [?|(g & Hgs & [c Hc])]; [by left|right]. destruct (proj1 (Heq a c)) as (h & Hhs & Hha); [eauto|]. exists h. split; [done|by exists c].
  Qed.
End union.

Lemma zip_app {A B} (l1 l2 : list A) (k1 k2 : list B) : length l1 = length k1 -> zip (l1 ++ l2) (k1 ++ k2) = zip l1 k1 ++ zip l2 k2.
Proof. revert k1. induction l1 as [|x l1 IH]; intros [|y k1] Hl; simpl in *; try done. by rewrite IH by lia. Qed.
Lemma perm_keys {A B} (l : list (A * B)) (k : list A) : l.*1 ≡ₚ k -> exists l', l ≡ₚ l' /\ l'.*1 = k.
Proof. intros Hp. destruct (Permutation_map_inv fst l (symmetry Hp)) as (l' & -> & ?). by exists l'. Qed.
Lemma unconcat {A B} (ss : list (list A)) (l : list B) : length l = length (concat ss) ->
  exists ys, Forall2 (fun s y => length s = length y) ss ys /\ concat ys = l.
Proof.
  revert l. induction ss as [|s ss IH]; intros l Hl; simpl in *; [exists []; split; [constructor|by destruct l]|].
  rewrite app_length in Hl. destruct (IH (drop (length s) l)) as (ys & Hys & He); [rewrite drop_length; lia|].
  exists (take (length s) l :: ys). split; [constructor; [rewrite take_length; lia|done]|]. simpl. by rewrite He, take_drop.
Qed.

(** ** Dealing out containers anew *)

Section dealing.
  (** [S]: a container object; [X]: its contents.  [one s x g]: the part [g] of
      the memory is that of the container [s] with contents [x].  [reach H s a]:
      in the memory [H] the address [a] can be reached from the container [s]. *)
  Context {C S X : Type}.
  Notation mem := (gmap addr C).
  Context (one : S -> X -> mem -> Prop) (reach : mem -> S -> addr -> Prop).

  (** The containers are given to the threads in any other way; a thread gets
      the cells that can be reached from its containers. *)
  Definition deal_anew (H : mem) (ms ms' : list (list S * gset addr)) : Prop :=
    concat ms.*1 ≡ₚ concat ms'.*1 /\
    Forall (fun m => forall a, a ∈ m.2 <-> exists s, s ∈ m.1 /\ reach H s a) ms'.
  (** Every container keeps its contents. *)
  Definition deal_keeps (ss : list (list S)) (xs : list (list X)) (ss' : list (list S)) (ys : list (list X)) : Prop :=
    Forall2 (fun s y => length s = length y) ss' ys /\ zip (concat ss) (concat xs) ≡ₚ zip (concat ss') (concat ys).

  Fixpoint each (ps : list (S * X)) (g : mem) : Prop :=
    match ps with
    | [] => g = ∅
    | (s, x) :: ps => exists g1 g2, one s x g1 /\ each ps g2 /\ g1 ##ₘ g2 /\ g = g1 ∪ g2
    end.
  Lemma each_perm ps qs h : ps ≡ₚ qs -> each ps h -> each qs h.
  Proof.
    intros Hp. revert h. induction Hp as [|[v l] ps qs Hp IH|[v l] [v' l'] ps|ps qs rs _ IH1 _ IH2]; intros h; simpl; [done|..|auto].
    - intros (h1 & h2 & Ho & Hr & Hd & ->). exists h1, h2. eauto.
    - intros (h1 & ? & Ho & (h2 & h3 & Ho2 & Hr & Hd2 & ->) & Hd & ->). apply map_disjoint_union_r in Hd as [Hd1 Hd3].
      exists h2, (h1 ∪ h3). split_and!; [done|by exists h1, h3|by apply map_disjoint_union_r|].
      rewrite !(assoc_L (∪)). f_equal. by apply map_union_comm.
  Qed.
  Lemma each_app ps qs h : each (ps ++ qs) h <-> exists h1 h2, each ps h1 /\ each qs h2 /\ h1 ##ₘ h2 /\ h = h1 ∪ h2.
  Proof.
    revert h. induction ps as [|[v l] ps IH]; intros h; simpl.
    - split.
      + intros Ho. exists ∅, h. split_and!; [done|done|apply map_disjoint_empty_l|by rewrite (left_id_L ∅ (∪))].
      + intros (h1 & h2 & -> & Ho & _ & ->). by rewrite (left_id_L ∅ (∪)).
    - split.
      + intros (h1 & h2 & Ho & (h3 & h4 & H3 & H4 & Hd34 & ->)%IH & Hd & ->). apply map_disjoint_union_r in Hd as [Hd3 Hd4].
        exists (h1 ∪ h3), h4. split_and!; [by exists h1, h3|done|by apply map_disjoint_union_l|by rewrite (assoc_L (∪))].
      + intros (? & h4 & (h1 & h3 & Ho & H3 & Hd13 & ->) & H4 & Hd & ->). apply map_disjoint_union_l in Hd as [Hd1 Hd3].
        exists h1, (h3 ∪ h4). split_and!; [done|apply IH; by exists h3, h4|by apply map_disjoint_union_r|by rewrite (assoc_L (∪))].
  Qed.

  (** [Inv] as above, for several containers *)
  Context (Inv : list S -> list X -> mem -> Prop).
  Context (Inv_each : forall ss xs g, Inv ss xs g <-> length ss = length xs /\ each (zip ss xs) g).
  Context (reach_ok : forall H s x g a, one s x g -> g ⊆ H -> reach H s a <-> a ∈ dom g).

  Lemma all_merge (ps : list (list S * list X)) (gs : list mem) :
    Forall2 (fun p g => Inv p.1 p.2 g) ps gs -> apart gs -> each (zip (concat ps.*1) (concat ps.*2)) (gunion gs).
  Proof.
    induction 1 as [|[vs ls] g ps gs Hr Hrest IH]; intros Ha; simpl; [done|]. simpl in Hr. apply apart_cons in Ha as [Ha Hd].
    apply Inv_each in Hr as [Hl Hr]. rewrite zip_app by done. apply each_app. exists g, (gunion gs). split_and!; [done|by apply IH|done..].
  Qed.
  Lemma all_split (ps : list (list S * list X)) (h : mem) :
    Forall (fun p => length p.1 = length p.2) ps -> each (zip (concat ps.*1) (concat ps.*2)) h ->
    exists gs, Forall2 (fun p g => Inv p.1 p.2 g) ps gs /\ apart gs /\ gunion gs = h.
  Proof.
    intros Hl. revert h. induction Hl as [|[vs ls] ps Hl Hrest IH]; intros h; simpl in *.
    - intros ->. exists []. split; [apply Forall2_nil_2|]. split; [|done]. intros i k g g' _ Hi. by rewrite lookup_nil in Hi.
    - rewrite zip_app by done. intros (h1 & h2 & H1 & H2 & Hd & ->)%each_app. destruct (IH h2 H2) as (gs & Hf & Ha & <-).
      exists (h1 :: gs). split_and!; [|by apply apart_cons|done]. constructor; [|done]. simpl. apply Inv_each. done.
  Qed.
  Lemma each_reach H ps g a : each ps g -> g ⊆ H -> (exists s, s ∈ ps.*1 /\ reach H s a) <-> a ∈ dom g.
  Proof.
    revert g. induction ps as [|[s x] ps IH]; intros g; simpl.
    - intros -> _. rewrite dom_empty. split; [intros (s & Hs%elem_of_nil & _); done|set_solver].
    - intros (g1 & g2 & Ho & Hr & Hd & ->) Hsub.
      assert (g1 ⊆ H) as Hs1 by (etrans; [apply map_union_subseteq_l|exact Hsub]).
      assert (g2 ⊆ H) as Hs2 by (etrans; [by apply map_union_subseteq_r|exact Hsub]).
      rewrite dom_union, elem_of_union, <-(IH g2 Hr Hs2), <-(reach_ok H s x g1 a Ho Hs1). split.
      + intros (s' & [->|Hs']%elem_of_cons & Ha); [by left|right; eauto].
      + intros [Ha|(s' & Hs' & Ha)]; [exists s; split; [left|done]|exists s'; split; [by right|done]].
  Qed.

  Lemma deal_anew_ok H f ms xs ms' : held Inv H f ms xs -> deal_anew H ms ms' ->
    exists ys, held Inv H f ms' ys /\ deal_keeps ms.*1 xs ms'.*1 ys.
  Proof.
    intros (gs & Hc & Hlg & Hlx & Ha & Hinv) [Hp Hown].
    assert (Forall2 (fun p g => Inv p.1 p.2 g) (zip ms.*1 xs) gs) as Hf2.
    { apply Forall2_same_length_lookup_2; [rewrite zip_with_length, fmap_length; lia|]. intros i [vs ls] g Hi Hg.
      apply lookup_zip_with_Some in Hi as (? & ? & [= <- <-] & Hv & Hx). rewrite list_lookup_fmap in Hv. destruct (ms !! i) as [m|] eqn:Em; [|done].
      simplify_eq/=. by eapply Hinv. }
    pose proof (all_merge _ _ Hf2 Ha) as Hm. rewrite fst_zip, snd_zip in Hm by (rewrite fmap_length; lia).
    assert (length (concat ms.*1) = length (concat xs)) as Hlc.
    { clear -Hf2 Hlx Inv_each. assert (length ms.*1 = length xs) as Hl by (rewrite fmap_length; lia). revert gs Hf2 Hl. generalize (ms.*1). intros ss. clear -Inv_each.
      revert xs. induction ss as [|s ss IH]; intros [|x xs] gs Hf Hl; simpl in *; try done. inversion Hf as [|? g ? gs' Hr Hrest]; subst. simpl in Hr.
      apply Inv_each in Hr as [Hr _]. rewrite !app_length, Hr. f_equal. eapply IH; [done|lia]. }
    destruct (perm_keys (zip (concat ms.*1) (concat xs)) (concat ms'.*1)) as (l' & Hpl & Hl'); [by rewrite fst_zip by lia|].
    destruct (unconcat (ms'.*1) l'.*2) as (ys & Hys & Hcy); [by rewrite fmap_length, <-Hl', fmap_length|].
    assert (l' = zip (concat ms'.*1) (concat ys)) as -> by (rewrite Hcy, <-Hl'; symmetry; apply zip_fst_snd).
    exists ys. split; [|by split].
    destruct (all_split (zip ms'.*1 ys) (gunion gs)) as (hs & Hf3 & Ha3 & Hu3).
    { apply Forall_lookup. intros i [vs ls] Hi. apply lookup_zip_with_Some in Hi as (? & ? & [= <- <-] & Hv & Hx). simpl. exact (Forall2_lookup_lr _ _ _ _ _ _ Hys Hv Hx). }
    { pose proof (Forall2_length _ _ _ Hys). rewrite fst_zip, snd_zip by lia. by eapply each_perm. }
    pose proof (Forall2_length _ _ _ Hys) as Hly. pose proof (Forall2_length _ _ _ Hf3) as Hlh. rewrite zip_with_length in Hlh. rewrite fmap_length in Hly, Hlh.
    pose proof (consists_regroup H f gs hs Ha Ha3 (eq_sym Hu3) Hc) as Hc'.
    exists hs. split; [exact Hc'|]. split; [lia|]. split; [lia|]. split; [done|]. intros i m x g Hmi Hx Hg.
    assert (Inv m.1 x g) as Hr.
    { apply (Forall2_lookup_lr _ _ _ i (m.1, x) g Hf3); [|done]. apply lookup_zip_with_Some. exists m.1, x. by rewrite list_lookup_fmap, Hmi. }
    split; [|done]. apply Inv_each in Hr as [Hl Hr]. rewrite Forall_lookup in Hown. apply set_eq. intros a. rewrite (Hown i m Hmi a).
    rewrite <-(each_reach H _ g a Hr), fst_zip by (lia || (apply Hc'; by eapply elem_of_list_lookup_2)). done.
  Qed.
  (** All containers together *)
  Lemma held_all H f ms xs : held Inv H f ms xs ->
    exists g, Inv (concat ms.*1) (concat xs) g /\ H = g ∪ f /\ g ##ₘ f.
  Proof.
    intros (gs & Hc & Hlg & Hlx & Ha & Hinv).
    assert (Forall2 (fun p g => Inv p.1 p.2 g) (zip ms.*1 xs) gs) as Hf2.
    { apply Forall2_same_length_lookup_2; [rewrite zip_with_length, fmap_length; lia|]. intros i [vs ls] g Hi Hg.
      apply lookup_zip_with_Some in Hi as (? & ? & [= <- <-] & Hv & Hx). rewrite list_lookup_fmap in Hv. destruct (ms !! i) as [m|] eqn:Em; [|done].
      simplify_eq/=. by eapply Hinv. }
    pose proof (all_merge _ _ Hf2 Ha) as Hm. rewrite fst_zip, snd_zip in Hm by (rewrite fmap_length; lia).
    assert (length (concat ms.*1) = length (concat xs)) as Hlc.
    { clear -Hf2 Hlx Inv_each. assert (length ms.*1 = length xs) as Hl by (rewrite fmap_length; lia). revert gs Hf2 Hl. generalize (ms.*1). intros ss. clear -Inv_each.
      revert xs. induction ss as [|s ss IH]; intros [|x xs] gs Hf Hl; simpl in *; try done. inversion Hf as [|? g ? gs' Hr Hrest]; subst. simpl in Hr.
      apply Inv_each in Hr as [Hr _]. rewrite !app_length, Hr. f_equal. eapply IH; [done|lia]. }
    exists (gunion gs). split; [by apply Inv_each|]. destruct Hc as (Hf & Hin & Hcov). assert (gunion gs ##ₘ f) as Hd.
    { apply map_disjoint_spec. intros a c1 c2 H1 Hc2. apply gunion_lookup in H1 as (g & Hgs & H1); [|done]. destruct (Hin g Hgs) as [_ Hd].
      rewrite map_disjoint_spec in Hd. eauto. }
    split; [|done]. apply map_eq. intros a. destruct ((gunion gs ∪ f) !! a) as [c|] eqn:E.
    - apply lookup_union_Some in E as [E|E]; [|by eapply lookup_weaken|done]. apply gunion_lookup in E as (g & Hgs & E); [|done].
      destruct (Hin g Hgs). by eapply lookup_weaken.
    - destruct (H !! a) as [c|] eqn:E2; [|done]. apply lookup_union_None in E as [E1 E3].
      destruct (Hcov a) as [[? ?]|(g & Hgs & [c' Hc'])]; [by rewrite E2|congruence|].
      assert (gunion gs !! a = Some c') by (apply gunion_lookup; eauto). congruence.
  Qed.
End dealing.

(** ** For the examples *)
Definition rest_of {C X R} (t : cthr C (list X * list R)) : rest :=
  match ct_prog t with PRet (s, r) => Rest s (ct_own t) r | _ => Rest [] ∅ [] end.
Definition at_end {C A} (t : cthr C A) : bool := match ct_prog t with PRet _ => size (ct_stack t) =? 0 | _ => false end.
Definition sys_of {C A} (s : csys C A + fault) : csys C A := match s with inl s => s | inr _ => CSys ∅ [] end.
Lemma ended_by {C X R} (s : csys C (list X * list R)) : forallb at_end (cs_thr s) = true -> ended s (rest_of <$> cs_thr s).
Proof.
  unfold ended. generalize (cs_thr s). intros ts. induction ts as [|t ts IH]; simpl; [constructor|]. intros [Ht Hts]%andb_prop.
  constructor; [|by apply IH]. unfold at_end in Ht. unfold rest_of, finished. destruct (ct_prog t) as [[x r]|?|?|?|?|?|?|?|?|?|?|?|?]; try done.
  split; [done|]. split; [|done]. apply map_size_empty_inv. by apply Nat.eqb_eq.
Qed.
Lemma sys_of_run {C A} (s : csys C A + fault) : match s with inl _ => true | inr _ => false end = true -> s = inl (sys_of s).
Proof. by destruct s. Qed.
