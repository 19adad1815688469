(** * C16: an error object that is already set on entry

    list, set, tree and make_shared.  A call that would have to create a node
    asks for the storage, finds the error object set, concludes that the
    request failed, and forgets the storage. *)
From Verif Require Import ListExtra RbExtra RbInsert PropList PropSet.
From Verif Require SpModel PropSp.

(** Nothing but at most one new cell [c], to which nothing refers; it is there
    unless the environment refused the request; one event is used; and an error
    is reported. *)
Definition leaks_one {C} (c : C) (w w' : world C) : Prop :=
  w_err w' <> None /\ w_orc w' = tail (w_orc w) /\
  match head (w_orc w) with
  | Some (EvFail _) => w_heap w' = w_heap w
  | _ => exists a, w_heap w !! a = None /\ w_heap w' = <[a := c]> (w_heap w)
  end.

Lemma runs_alloc_stale {C A} (c : C) (no : M C A) (rest : option addr -> M C A) w (Q : A -> world C -> Prop) :
  w_err w <> None ->
  (forall w', leaks_one c w w' -> runs no w' Q) ->
  runs (let! r := alloc_cell c in let! e := has_err in if (e : bool) then no else rest r) w Q.
Proof.
  intros He Hno. rbind. destruct w as [h [|[code|hint] o] [e|] na nc]; [|done| |done| |done]; (eapply runs_eq; [cbn; reflexivity|]);
    (rbind; apply runs_has_err; simpl; apply Hno; split; [done|]; split; [done|]); simpl; [|done|]; (eexists; split; [|done]; apply pick_fresh).
Qed.

(** ** list *)
Section lists.
  Context {V : Type} (cf : cfg V).
  Notation W := (world (lcell V)).
  Implicit Types w : W.
  Notation node al := (LCell (V := V) None None (LNode al None)).

  Lemma leak_own al w w' hv hf : heap_is w hv hf -> leaks_one (node al) w w' ->
    exists hf', heap_is w' hv hf' /\
      match head (w_orc w) with Some (EvFail _) => hf' = hf | _ => exists a, w_heap w !! a = None /\ hf' = <[a := node al]> hf end.
  Proof.
    intros [Hw Hd] (_ & _ & Hl).
    assert (w_heap w' = w_heap w -> heap_is w' hv hf) as Hsame by (intros Hsm; unfold heap_is; by rewrite Hsm).
    assert (forall a, w_heap w !! a = None -> w_heap w' = <[a := node al]> (w_heap w) -> heap_is w' hv (<[a := node al]> hf)) as Hnew.
    { intros a Ha Hnw. unfold heap_is. rewrite Hnw. rewrite Hw in Ha |- *. apply lookup_union_None in Ha as [Ha1 Ha2]. split; simpl.
      - by rewrite <-insert_union_r.
      - by apply map_disjoint_insert_r. }
    destruct (head (w_orc w)) as [[code|hint]|].
    - exists hf. split; [by apply Hsame|done].
    - destruct Hl as (a & Ha & Hh). exists (<[a := node al]> hf). split; [by apply Hnew|by exists a].
    - destruct Hl as (a & Ha & Hh). exists (<[a := node al]> hf). split; [by apply Hnew|by exists a].
  Qed.

  Lemma runs_emplace_stale al hdr xs R hv hf w pos x (Q : addr -> W -> Prop) :
    lists_own al ((hdr, xs) :: R) hv -> heap_is w hv hf -> w_err w <> None ->
    (forall w', leaks_one (node al) w w' -> Q hdr w') ->
    runs (lst_emplace cf (Lst al hdr) pos x) w Q.
  Proof.
    intros Ho Hh He HQ. unfold lst_emplace. rbind. unfold create_node. apply runs_alloc_stale; [done|]. intros w' Hl.
    apply runs_ret. rbind. apply runs_has_err. destruct (w_err w') as [e|] eqn:E; [|by destruct Hl].
    destruct (leak_own al w w' hv hf Hh Hl) as (hf' & Hh' & _).
    eapply runs_end; [exact Hh'|exact Ho|]. by apply HQ.
  Qed.
End lists.

(** Every function that adds elements to a list, wherever and with whatever
    argument: the lists are unchanged, no element is added, one node is lost. *)
Theorem C16_stale_list V (cf : cfg V) al hdr xs R hv hf w pos x n ys :
  lists_own al ((hdr, xs) :: R) hv -> heap_is w hv hf -> w_err w <> None -> 0 < n -> ys <> [] ->
  let o := Lst al hdr in
  let lost {A} (_ : A) (w' : world (lcell V)) := leaks_one (LCell None None (LNode al None)) w w' in
  runs (lst_insert cf o pos x) w (fun it w' => it = hdr /\ lost it w') /\
  runs (lst_emplace cf o pos x) w (fun it w' => it = hdr /\ lost it w') /\
  runs (lst_push_back cf o x) w lost /\ runs (lst_push_front cf o x) w lost /\
  runs (lst_insert_n cf o pos n x) w lost /\ runs (lst_insert_range cf o pos ys) w lost.
Proof.
  intros Ho Hh He Hn Hys o lost. unfold o, lost. split_and!.
  - eapply runs_emplace_stale; [exact Ho|done|done|]. done.
  - eapply runs_emplace_stale; [exact Ho|done|done|]. done.
  - unfold lst_push_back. rbind. eapply runs_end; [exact Hh|exact Ho|]. rbind. eapply runs_emplace_stale; [exact Ho|done|done|].
    intros w' Hl. by apply runs_ret.
  - unfold lst_push_front. rbind. eapply runs_begin; [exact Hh|exact Ho|]. rbind. eapply runs_emplace_stale; [exact Ho|done|done|].
    intros w' Hl. by apply runs_ret.
  - destruct n as [|n]; [lia|]. cbn [lst_insert_n]. rbind. eapply runs_emplace_stale; [exact Ho|done|done|].
    intros w' Hl. rbind. apply runs_has_err. destruct (w_err w') eqn:E; [by apply runs_ret|by destruct Hl].
  - destruct ys as [|y ys]; [done|]. cbn [lst_insert_range]. rbind. eapply runs_emplace_stale; [exact Ho|done|done|].
    intros w' Hl. rbind. apply runs_has_err. destruct (w_err w') eqn:E; [by apply runs_ret|by destruct Hl].
Qed.
Print Assumptions C16_stale_list.

(** The destructor does not find the node. *)
Theorem C16_stale_list_leaks V (cf : cfg V) al hdr xs hv hf w x :
  lists_own al [(hdr, xs)] hv -> heap_is w hv hf -> w_err w <> None -> (forall code, head (w_orc w) <> Some (EvFail code)) ->
  runs (do! lst_push_back cf (Lst al hdr) x in lst_destroy (Lst al hdr)) w (fun _ w' =>
    exists a, w_heap w !! a = None /\ w_heap w' = <[a := LCell None None (LNode al None)]> hf).
Proof.
  intros Ho Hh He Hev. rbind. eapply runs_mono.
  { eapply (C16_stale_list V cf al hdr xs [] hv hf w 1%positive x 1 [x]); try done. lia. }
  cbv beta. intros _ w' Hl. destruct (leak_own al w w' hv hf Hh Hl) as (hf' & Hh' & Hc).
  eapply runs_lst_destroy; [exact Hh'|exact Ho|by left|]. intros hv' Ho' Hh''. simpl.
  assert (hv' = ∅) as ->.
  { apply map_empty. intros i. destruct Ho' as (_ & Hdom & _). destruct (hv' !! i) eqn:E; [|done].
    assert (is_Some (hv' !! i)) as Hi by (by rewrite E). apply Hdom in Hi. by apply elem_of_nil in Hi. }
  destruct (head (w_orc w)) as [[code|hint]|]; [by destruct (Hev code)|..].
  all: destruct Hc as (a & Ha & ->); exists a; split; [done|]; simpl; by rewrite (left_id_L ∅ (∪)).
Qed.
Print Assumptions C16_stale_list_leaks.

(** A client that goes on with the same error object: from the first error on no
    element arrives, and every request that is granted is lost. *)
Fixpoint push_each {V} (cf : cfg V) (o : lst_obj) (ys : list (larg V)) : M (lcell V) unit :=
  match ys with
  | [] => ret tt
  | y :: ys => do! lst_push_back cf o y in push_each cf o ys
  end.
Fixpoint granted (n : nat) (evs : list event) : nat :=
  match n with
  | 0 => 0
  | S n =>
      match evs with
      | [] => S (granted n [])
      | EvFail _ :: evs => granted n evs
      | EvOk _ :: evs => S (granted n evs)
      end
  end.

Theorem C16_stale_list_run V (cf : cfg V) al hdr xs R hv hf w ys :
  lists_own al ((hdr, xs) :: R) hv -> heap_is w hv hf -> w_err w <> None ->
  runs (push_each cf (Lst al hdr) ys) w (fun _ w' => w_err w' <> None /\
    exists lost, heap_is w' hv (lost ∪ hf) /\ lost ##ₘ hf /\
      size lost = granted (length ys) (w_orc w) /\
      forall a c, lost !! a = Some c -> c = LCell None None (LNode al None)).
Proof.
  intros Ho. revert w hf. induction ys as [|y ys IH]; intros w hf Hh He; cbn [push_each].
  - apply runs_ret. split; [done|]. exists ∅. rewrite (left_id_L ∅ (∪)). split_and!; [done|apply map_disjoint_empty_l|done|done].
  - rbind. eapply runs_mono.
    { eapply (C16_stale_list V cf al hdr xs R hv hf w 1%positive y 1 [y]); try done. lia. }
    cbv beta. intros _ w1 Hl. pose proof Hl as (He1 & Ho1 & _).
    destruct (leak_own al w w1 hv hf Hh Hl) as (hf1 & Hh1 & Hc).
    eapply runs_mono; [by eapply IH|]. cbv beta. intros _ w' (He' & lost & Hh' & Hd & Hsz & Hall). split; [done|].
    assert (forall a, w_heap w !! a = None -> hf1 = <[a := LCell None None (LNode al None)]> hf ->
      exists lost', heap_is w' hv (lost' ∪ hf) /\ lost' ##ₘ hf /\ size lost' = S (granted (length ys) (tail (w_orc w))) /\
        forall b c, lost' !! b = Some c -> c = LCell None None (LNode al None)) as Hnew.
    { intros a Ha ->. apply map_disjoint_insert_r in Hd as [Hla Hd]. destruct Hh as [Hw Hdj]. rewrite Hw in Ha.
      apply lookup_union_None in Ha as [_ Ha].
      exists (<[a := LCell None None (LNode al None)]> lost). split_and!.
      - rewrite <-insert_union_l, insert_union_r by done. done.
      - by apply map_disjoint_insert_l.
      - rewrite map_size_insert_None by done. by rewrite Hsz, Ho1.
      - intros b c [[_ <-]|[_ Hb]]%lookup_insert_Some; [done|by eapply Hall]. }
    cbn [length granted]. destruct (w_orc w) as [|[code|hint] evs]; simpl in Hc, Ho1, Hnew.
    + destruct Hc as (a & Ha & ->). by apply (Hnew a).
    + subst hf1. exists lost. split_and!; [done|done|by rewrite Hsz, Ho1|done].
    + destruct Hc as (a & Ha & ->). by apply (Hnew a).
Qed.
Print Assumptions C16_stale_list_run.

(** ** set *)
Section sets.
  Context {V : Type} {L : limit} (cf : cfg V) (comp : V -> V -> bool).
  Notation W := (world (tcell V)).
  Implicit Types w : W.

  Lemma runs_create_stale {A} o x (g : M (tcell V) A) k w (Q : A -> W -> Prop) :
    w_err w <> None ->
    (forall w', leaks_one (TCell None None None None (TNode (t_alloc o) None)) w w' -> runs g w' Q) ->
    runs (let! l := tcreate_node cf o x in let! e := has_err in if (e : bool) then g else k l) w Q.
  Proof.
    intros He Hg. rbind. unfold tcreate_node. apply runs_alloc_stale; [done|]. intros w' Hl. apply runs_ret.
    rbind. apply runs_has_err. destruct (w_err w') eqn:E; [by apply Hg|by destruct Hl].
  Qed.
End sets.

(** Insertion of a value that is there needs no node and does no harm; any
    other insertion, and every emplacement, loses one. *)
Theorem C16_stale_set V (cf : cfg V) comp o xs hf w x v hint :
  swo comp -> set_is comp o xs hf w -> w_err w <> None -> targ_is xs hf x v ->
  let lost w' := leaks_one (TCell None None None None (TNode (t_alloc o) None)) w w' in
  runs (insert_unique cf comp o x) w (fun r w' =>
    (absent comp v xs.*2 /\ r = (t_end o, true) /\ lost w') \/
    (w' = w /\ r.2 = false /\ exists u, (r.1, u) ∈ xs /\ equivalent comp u v)) /\
  runs (emplace_unique cf comp o x) w (fun r w' => r = (t_end o, false) /\ lost w') /\
  runs (emplace_hint_unique cf comp o hint x) w (fun r w' => r = t_end o /\ lost w').
Proof.
  intros Hswo [t Hs]%set_is_sin He Hx lost. pose proof (targ_rd _ _ _ _ _ _ _ _ Hs Hx) as Hrd. split_and!.
  - unfold insert_unique. rbind. pose proof Hs as (Ht & HE & Hrb & Ha). subst xs.
    eapply unique_pos_find; [done|exact Ht|done|done|exact Hrd| |].
    + intros k Hk Hpre Hpost. rbind. rewrite <-Hk in Hs. unfold m_insert. rbind.
      eapply side_spec; [done|done|exact Hs|by split_and!|by apply rd_reads|].
      apply runs_create_stale; [done|]. intros w' Hl. apply runs_ret. apply runs_ret. left. split_and!; [|done|done].
      eapply far_absent. intros p. rewrite <-Hk, elems_plug. simpl. intros [Hp|Hp]%elem_of_app; auto.
    + intros i j u Hi H1 H2. rbind. apply runs_deref. apply runs_ret. right. split_and!; [done|done|].
      exists u. split; [by eapply elem_of_list_lookup_2|done].
  - apply runs_create_stale; [done|]. intros w' Hl. by apply runs_ret.
  - apply runs_create_stale; [done|]. intros w' Hl. by apply runs_ret.
Qed.
Print Assumptions C16_stale_set.

(** ** shared_ptr *)

(** make_shared: a null pointer, and the control block is lost. *)
Theorem C16_stale_make_shared V (cf : cfg V) w v ks :
  w_err w <> None ->
  runs (SpModel.make_shared cf v ks) w (fun x w' =>
    x = SpModel.sp_null /\ leaks_one (SpModel.SBlock (SpModel.CB (c_dflt cf) 0 0 None)) w w').
Proof. intros He. unfold SpModel.make_shared, SpModel.make_shared_a. apply runs_alloc_stale; [done|]. intros w' Hl. by apply runs_ret. Qed.
Print Assumptions C16_stale_make_shared.

(** Programs that clear the error object before every call leak nothing: any
    history of any number of lists, or of sets, and the destructors. *)
Theorem C16_clear_list_partial V (cf : cfg V) comp k ops w :
  runs (let! r := list_program cf comp k ops in destroy_lists r.1) w (fun _ w' => w_heap w' = w_heap w).
Proof.
  rbind. eapply runs_mono; [apply C17_list_history|]. cbv beta. by intros r w' (_ & ls & _ & _ & _ & Hd).
Qed.
Print Assumptions C16_clear_list_partial.
Theorem C16_clear_set_partial V (cf : cfg V) comp k ops w :
  swo comp -> runs (let! r := set_program cf comp k ops in destroy_sets r.1) w (fun _ w' => w_heap w' = w_heap w).
Proof.
  intros Hswo. rbind. eapply runs_mono; [by apply C30_set_history|]. cbv beta. by intros r w' (_ & ls & _ & _ & _ & Hd).
Qed.
Print Assumptions C16_clear_set_partial.

(** Two lists and a set, with an error left over from an earlier call. *)
Definition stale {C} (w : world C) : world C := World (w_heap w) (w_orc w) (Some EBadAlloc) (w_allocs w) (w_ctors w).
Example C16_stale_containers_example :
  runs (do! lst_push_back lcD oA (LAVal 9) in do! lst_destroy oA in lst_destroy oB) (stale (lw1 [EvOk 50])) (fun _ w' =>
    w_err w' = Some EBadAlloc /\ w_heap w' = {[ 50%positive := LCell None None (LNode (l_alloc oA) None) ]}) /\
  runs (do! push_each lcD oA (LAVal <$> [9; 9; 9]) in do! lst_destroy oA in lst_destroy oB) (stale (lw1 [EvOk 50; EvFail 1; EvOk 60])) (fun _ w' =>
    size (w_heap w') = 2) /\
  set_is nat_lt exO exX ∅ (stale (tw1 [EvOk 50])) /\ targ_is exX ∅ (TAVal 17) 17 /\
  runs (let! r := insert_unique tcD nat_lt exO (TAVal 17) in do! t_destroy exO in ret r) (stale (tw1 [EvOk 50])) (fun r w' =>
    r.2 = true /\ w_heap w' = {[ 50%positive := TCell None None None None (TNode (t_alloc exO) None) ]}) /\
  runs (let! r := insert_unique tcD nat_lt exO (TARef 6) in do! t_destroy exO in ret r) (stale (tw1 [EvOk 50])) (fun r w' =>
    r.2 = false /\ w_heap w' = ∅).
Proof. split; [compute_run|]. split; [compute_run|]. split; [apply ex_set|]. split; [done|]. split; compute_run. Qed.
