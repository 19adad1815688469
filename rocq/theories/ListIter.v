(** * list::insert of a range given by list iterators

    [lst_insert_range] (ListModel.v) takes the values of the range as they are
    when the call starts.  Here the range is read through its iterators while the
    nodes are inserted, so that the range may lie in the list itself. *)
From Verif Require Export ListExtra.

Section model.
  Context {V : Type} (cf : cfg V).
  Notation ML := (M (lcell V)).

  (** list.hpp:934-949 with list iterators [first], [last] *)
  Fixpoint insert_nodes_loop (fuel : nat) (o : lst_obj) (pos first last : addr) : ML unit :=
    match fuel with
    | 0 => fail FFuel
    | S fuel =>
        let! q := it_eq cf first last in
        if (q : bool) then ret tt else
        do! check_node cf first in   (* *first *)
        let! pos := lst_insert cf o pos (LARef first) in
        let! e := has_err in
        if (e : bool) then ret tt else
        let! first := it_inc cf first in
        insert_nodes_loop fuel o pos first last
    end.
  (** The range may lie around [pos]: then every node in front of [pos] is read
      twice, once as it was and once as a copy. *)
  Definition lst_insert_nodes (o : lst_obj) (pos first last : addr) : ML unit :=
    let! fuel := heap_fuel in
    insert_nodes_loop (fuel + fuel) o pos first last.
End model.

Section proofs.
  Context {V : Type} (cf : cfg V).
  Notation W := (world (lcell V)).
  Notation E := (addr * V)%type.

  (** [m] are the nodes to be read, of the list [h]: of another list than the one
      that is changed, or of the part behind [pos], or of the part in front of
      [pos], but not directly. *)
  Definition src (hdr : addr) (p q : list E) (R : list (addr * list E)) (h : addr) (l m r : list E) : Prop :=
    (h, l ++ m ++ r) ∈ R \/
    (h = hdr /\ exists u, q = u ++ m ++ r /\ l = p ++ u) \/
    (h = hdr /\ exists s, s <> [] /\ p = l ++ m ++ s /\ r = s ++ q).
  Lemma src_in hdr p q R h l m r : src hdr p q R h l m r -> (h, l ++ m ++ r) ∈ (hdr, p ++ q) :: R.
  Proof.
    intros [?|[(-> & u & -> & ->)|(-> & s & _ & -> & ->)]]; [by right|..]; rewrite elem_of_cons; left; f_equal; by rewrite <-!(assoc_L (++)).
  Qed.
  Lemma src_step hdr p q R h l y v m r a : src hdr p q R h l ((y, v) :: m) r ->
    exists l' r', src hdr p ((a, v) :: q) R h (l' ++ [(y, v)]) m r' /\ hdx r'.*1 h = hdx r.*1 h.
  Proof.
    intros [?|[(-> & u & -> & ->)|(-> & s & Hs & -> & ->)]].
    - exists l, r. split; [|done]. left. by rewrite <-(assoc_L (++)).
    - exists (p ++ (a, v) :: u), r. split; [|done]. right; left. split; [done|]. exists ((a, v) :: u ++ [(y, v)]). simpl.
      by rewrite <-!(assoc_L (++)).
    - exists l, (s ++ (a, v) :: q). split; [right; right; split; [done|]; exists s; rewrite <-!(assoc_L (++)); done|].
      by destruct s.
  Qed.

  Lemma runs_read fuel w al hdr p q R hv hf h l m r last (Q : _ -> W -> Prop) :
    heap_is w hv hf -> lists_own al ((hdr, p ++ q) :: R) hv -> w_err w = None ->
    src hdr p q R h l m r -> last = hdx r.*1 h -> length m < fuel ->
    (forall ms hv' w', ms.*2 = reverse m.*2 -> lists_own al ((hdr, p ++ ms ++ q) :: R) hv' -> heap_is w' hv' hf -> w_err w' = None -> Q tt w') ->
    (forall k ms hv' w' e, k < length m -> ms.*2 = reverse (take k m.*2) -> lists_own al ((hdr, p ++ ms ++ q) :: R) hv' -> heap_is w' hv' hf ->
       w_err w' = Some e -> node_error cf e -> Q tt w') ->
    runs (insert_nodes_loop cf fuel (Lst al hdr) (hdx q.*1 hdr) (hdx (m ++ r).*1 h) last) w Q.
  Proof.
    revert w q hv l m r. induction fuel as [|fuel IH]; intros w q hv l m r Hh Ho He Hs Hlast Hf Hok Hfail; [lia|].
    pose proof (src_in _ _ _ _ _ _ _ _ Hs) as Hin. apply elem_of_Permutation in Hin as [R2 HR].
    pose proof (own_perm _ _ _ _ HR Ho) as Ho2.
    simpl. rbind. eapply runs_it_eq; [done|exact Ho2|apply hdx_in|rewrite Hlast, (assoc_L (++)); apply hdx_in|].
    destruct m as [|[y v] m]; simpl.
    - rewrite bool_decide_true by done. apply runs_ret. by eapply (Hok []).
    - rewrite bool_decide_false.
      2: { rewrite Hlast. destruct r as [|[z t] r]; simpl; [by eapply own_hdr_ne|].
           eapply (own_nodup_at _ _ l y v _ _ _ z t m); [exact Ho2|done]. }
      rbind. eapply runs_check_own; [done|exact Ho2|apply node_in|].
      rbind. eapply (runs_insert cf w al hdr p q R hv hf (LARef y) v); [done|exact Ho|done| | |].
      + eapply arg_in_perm; [symmetry; exact HR|]. left. simpl. set_solver.
      + intros a hv' w' _ Ho' Hh' He' _ _. rbind. apply runs_has_err. rewrite He'.
        destruct (src_step _ _ _ _ _ _ _ _ _ _ a Hs) as (l' & r' & Hs' & Hr').
        pose proof (src_in _ _ _ _ _ _ _ _ Hs') as Hin'. apply elem_of_Permutation in Hin' as [R3 HR3].
        pose proof (own_perm _ _ _ _ HR3 Ho') as Ho3. rewrite <-(assoc_L (++)) in Ho3.
        rbind. eapply runs_it_inc; [done|exact Ho3|].
        eapply (IH w' ((a, v) :: q) hv' (l' ++ [(y, v)]) m r'); try done; [congruence|simpl in Hf; lia|..].
        * intros ms hv2 w2 Hm Ho4 Hh2 He2. eapply (Hok (ms ++ [(a, v)])); [|by rewrite <-(assoc_L (++))|done..].
          rewrite fmap_app, Hm. simpl. by rewrite reverse_cons.
        * intros k ms hv2 w2 e Hk Hm Ho4 Hh2 He2 Hne. eapply (Hfail (S k) (ms ++ [(a, v)])); [simpl; lia| |by rewrite <-(assoc_L (++))|done..].
          rewrite fmap_app, Hm. simpl. by rewrite reverse_cons.
      + intros w' e Hw' He' Hne _. rbind. apply runs_has_err. rewrite He'. apply runs_ret.
        eapply (Hfail 0 []); [simpl; lia|done|done|by eapply heap_is_eq|done..].
  Qed.

  (** Reading the nodes directly in front of [pos]: afterwards the next one is the
      copy inserted last. *)
  Lemma runs_read_front n w al hdr l e M f r R hv hf (Q : _ -> W -> Prop) :
    heap_is w hv hf -> lists_own al ((hdr, l ++ e ++ M ++ f ++ r) :: R) hv -> w_err w = None ->
    (forall ms hv' w', ms.*2 = reverse e.*2 -> lists_own al ((hdr, l ++ e ++ ms ++ M ++ f ++ r) :: R) hv' -> heap_is w' hv' hf -> w_err w' = None ->
       runs (insert_nodes_loop cf n (Lst al hdr) (hdx (ms ++ M ++ f ++ r).*1 hdr) (hdx (ms ++ M ++ f ++ r).*1 hdr) (hdx r.*1 hdr)) w' Q) ->
    (forall k ms hv' w' x, k < length e -> ms.*2 = reverse (take k e.*2) -> lists_own al ((hdr, l ++ e ++ ms ++ M ++ f ++ r) :: R) hv' -> heap_is w' hv' hf ->
       w_err w' = Some x -> node_error cf x -> Q tt w') ->
    runs (insert_nodes_loop cf (length e + n) (Lst al hdr) (hdx (M ++ f ++ r).*1 hdr) (hdx (e ++ M ++ f ++ r).*1 hdr) (hdx r.*1 hdr)) w Q.
  Proof.
    revert w hv l M. induction e as [|[y v] e IH]; intros w hv l M Hh Ho He Hok Hfail; [by eapply (Hok [])|].
    simpl. rbind. eapply runs_it_eq; [done|exact Ho|apply (node_in _ _ y v)| |].
    { replace (l ++ ((y, v) :: e) ++ M ++ f ++ r) with ((l ++ ((y, v) :: e) ++ M ++ f) ++ r) by (by rewrite <-!(assoc_L (++))). apply hdx_in. }
    rewrite bool_decide_false.
    2: { destruct r as [|[z t] r]; simpl; [by eapply own_hdr_ne|].
         eapply (own_nodup_at _ _ l y v _ _ _ z t (e ++ M ++ f)); [exact Ho|]. by rewrite <-!(assoc_L (++)). }
    rbind. eapply runs_check_own; [done|exact Ho|apply node_in|].
    rbind. eapply (runs_insert cf w al hdr (l ++ (y, v) :: e) (M ++ f ++ r) R hv hf (LARef y) v); [done|by rewrite <-(assoc_L (++))|done| | |].
    - left. simpl. rewrite !elem_of_app. set_solver.
    - intros a hv' w' _ Ho' Hh' He' _ _. rewrite <-(assoc_L (++)) in Ho'. rbind. apply runs_has_err. rewrite He'.
      rbind. eapply runs_it_inc; [done|exact Ho'|].
      eapply (IH w' hv' (l ++ [(y, v)]) ((a, v) :: M)); [done|by rewrite <-(assoc_L (++))|done|..].
      + intros ms hv2 w2 Hm Ho4 Hh2 He2. rewrite <-(assoc_L (++) l) in Ho4.
        pose proof (Hok (ms ++ [(a, v)]) hv2 w2) as Hk. rewrite <-!(assoc_L (++)) in Hk. simpl in Hk. apply Hk; [|exact Ho4|done..].
        rewrite fmap_app, Hm. simpl. by rewrite reverse_cons.
      + intros k ms hv2 w2 x Hk Hm Ho4 Hh2 He2 Hne. rewrite <-(assoc_L (++) l) in Ho4.
        eapply (Hfail (S k) (ms ++ [(a, v)])); [simpl; lia| |by rewrite <-(assoc_L (++) ms)|done..].
        rewrite fmap_app, Hm. simpl. by rewrite reverse_cons.
    - intros w' x Hw' He' Hne _. rbind. apply runs_has_err. rewrite He'. apply runs_ret.
      eapply (Hfail 0 []); [simpl; lia|done|done|by eapply heap_is_eq|done..].
  Qed.

  (** What an insertion of the values [T], one after the other, guarantees. *)
  Definition inserted (al : alloc_id) hdr (p q : list E) R hf (T : list V) (Q : unit -> W -> Prop) : Prop :=
    (forall ms hv' w', ms.*2 = reverse T -> lists_own al ((hdr, p ++ ms ++ q) :: R) hv' -> heap_is w' hv' hf -> w_err w' = None -> Q tt w') /\
    (forall k ms hv' w' e, k < length T -> ms.*2 = reverse (take k T) -> lists_own al ((hdr, p ++ ms ++ q) :: R) hv' -> heap_is w' hv' hf ->
       w_err w' = Some e -> node_error cf e -> Q tt w').
  Lemma runs_insert_nodes w al hdr p q R hv hf h l m r (Q : _ -> W -> Prop) :
    heap_is w hv hf -> lists_own al ((hdr, p ++ q) :: R) hv -> w_err w = None ->
    src hdr p q R h l m r -> inserted al hdr p q R hf m.*2 Q ->
    runs (lst_insert_nodes cf (Lst al hdr) (hdx q.*1 hdr) (hdx (m ++ r).*1 h) (hdx r.*1 h)) w Q.
  Proof.
    intros Hh Ho He Hs [Hok Hfail]. unfold lst_insert_nodes.
    pose proof (src_in _ _ _ _ _ _ _ _ Hs) as Hin. apply elem_of_Permutation in Hin as [R2 HR].
    rbind. eapply runs_heap_fuel; [done|exact (own_perm _ _ _ _ HR Ho)|]. intros fuel Hfu. rewrite !app_length in Hfu.
    eapply runs_read; [done..|lia|done|]. intros k ms hv' w' e Hk. apply Hfail. by rewrite fmap_length.
  Qed.
  Lemma runs_insert_around w al hdr l e f r R hv hf (Q : _ -> W -> Prop) :
    heap_is w hv hf -> lists_own al ((hdr, l ++ e ++ f ++ r) :: R) hv -> w_err w = None ->
    inserted al hdr (l ++ e) (f ++ r) R hf (e.*2 ++ reverse e.*2 ++ f.*2) Q ->
    runs (lst_insert_nodes cf (Lst al hdr) (hdx (f ++ r).*1 hdr) (hdx (e ++ f ++ r).*1 hdr) (hdx r.*1 hdr)) w Q.
  Proof.
    intros Hh Ho He [Hok Hfail]. unfold lst_insert_nodes.
    rbind. eapply runs_heap_fuel; [done|exact Ho|]. intros fuel Hfu. rewrite !app_length in Hfu.
    replace (fuel + fuel) with (length e + (fuel + (fuel - length e))) by lia.
    eapply (runs_read_front _ w al hdr l e [] f r R); [done|exact Ho|done|..]; simpl.
    - intros ms hv' w' Hm Ho' Hh' He'.
      assert (Hl : length ms = length e) by (by rewrite <-(fmap_length snd ms), Hm, reverse_length, fmap_length).
      pose proof (runs_read (fuel + (fuel - length e)) w' al hdr (l ++ e) (ms ++ f ++ r) R hv' hf hdr (l ++ e) (ms ++ f) r (hdx r.*1 hdr) Q) as Hr.
      rewrite <-(assoc_L (++) ms) in Hr. apply Hr; [done|by rewrite <-(assoc_L (++))|done| |done|rewrite app_length; lia|..].
      + right; left. split; [done|]. exists []. by rewrite <-(assoc_L (++)), app_nil_r.
      + intros ms2 hv2 w2 Hm2 Ho2 Hh2 He2. eapply (Hok (ms2 ++ ms)); [|by rewrite <-(assoc_L (++) ms2)|done..].
        by rewrite fmap_app, Hm2, Hm, !reverse_app, fmap_app, Hm, reverse_app, reverse_involutive, <-(assoc_L (++)).
      + intros k ms2 hv2 w2 x Hk Hm2 Ho2 Hh2 He2 Hne. rewrite app_length in Hk.
        eapply (Hfail (length e + k) (ms2 ++ ms)); [rewrite !app_length, reverse_length, !fmap_length; lia| |by rewrite <-(assoc_L (++) ms2)|done..].
        rewrite fmap_app, Hm2, Hm, fmap_app, Hm. rewrite <-(fmap_length snd e) at 1. by rewrite take_add_app, reverse_app by done.
    - intros k ms hv' w' x Hk Hm Ho' Hh' He' Hne.
      eapply (Hfail k ms); [rewrite !app_length, fmap_length; lia| |by rewrite <-(assoc_L (++) l)|done..].
      rewrite Hm, take_app_le; [done|rewrite fmap_length; lia].
  Qed.
End proofs.
