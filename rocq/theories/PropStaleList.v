(** * C16: assigning to a list, and copying one, with an error object that is
    already set *)
From Verif Require Import ListExtra ListMore PropList PropStale.

Section stale.
  Context {V : Type} (cf : cfg V).
  Notation W := (world (lcell V)).
  Implicit Types w : W.

  Lemma runs_push_stale al hdr xs R hv hf w x (k : M (lcell V) unit) (Q : unit -> W -> Prop) :
    lists_own al ((hdr, xs) :: R) hv -> heap_is w hv hf -> w_err w <> None ->
    (forall w', leaks_one (LCell None None (LNode al None)) w w' -> Q tt w') ->
    runs (do! lst_push_back cf (Lst al hdr) x in let! e := has_err in if (e : bool) then ret tt else k) w Q.
  Proof.
    intros Ho Hh He HQ. rbind. eapply runs_mono.
    { eapply (C16_stale_list V cf al hdr xs R hv hf w 1%positive x 1 [x]); try done. lia. }
    cbv beta. intros [] w' Hl. rbind. apply runs_has_err.
    destruct (w_err w') eqn:E; [|by destruct Hl]. apply runs_ret. by apply HQ.
  Qed.
End stale.

(** Of the memory outside of the lists, [hf] is left unchanged, and one node of
    the allocator [al] without a value is added to it, unless the allocator
    refused. *)
Definition one_more_node {V} (al : alloc_id) (evs : list event) (hf hf' : gmap addr (lcell V)) : Prop :=
  match head evs with
  | Some (EvFail _) => hf' = hf
  | _ => exists a, hf !! a = None /\ hf' = <[a := LCell None None (LNode al None)]> hf
  end.

(** assign(n, x), assign(first, last) and copy of a list that is not empty: the
    old elements are gone, none is added, and one node is lost. *)
Theorem C16_stale_list_assign V (cf : cfg V) al hdr xs h2 ys R hv hf w x n args al2 :
  lists_own al ((hdr, xs) :: (h2, ys) :: R) hv -> heap_is w hv hf -> w_err w <> None ->
  c_dflt cf = al \/ xs = [] -> 0 < n -> args <> [] -> ys <> [] ->
  let o := Lst al hdr in
  let emptied (_ : unit) (w' : world (lcell V)) := w_err w' <> None /\
    exists hv' hf', lists_own al ((hdr, []) :: (h2, ys) :: R) hv' /\ heap_is w' hv' hf' /\ one_more_node al (w_orc w) hf hf' in
  runs (lst_assign_n cf o n x) w emptied /\
  runs (lst_assign_args cf o args) w emptied /\
  runs (lst_copy cf o (Lst al2 h2)) w emptied.
Proof.
  intros Ho Hh He Hal Hn Hargs Hys o emptied.
  assert (Hend : forall t hv1 (w1 w2 : world (lcell V)), heap_is w1 hv1 hf -> w_orc w1 = w_orc w ->
    lists_own al ((hdr, []) :: (t, xs) :: (h2, ys) :: R) hv1 -> leaks_one (LCell None None (LNode al None)) w1 w2 ->
    runs (lst_destroy (Lst (c_dflt cf) t)) w2 emptied).
  { intros t hv1 w1 w2 Hh1 Horc Ho1 Hl. destruct (leak_own al w1 w2 hv1 hf Hh1 Hl) as (hf' & Hh2 & Hc).
    eapply (runs_drop_tmp0 _ al _ t xs ((hdr, []) :: (h2, ys) :: R)); [exact Hh2|eapply own_perm; [|exact Ho1]; apply perm_swap|exact Hal|].
    intros hv3 w3 Ho3 Hh3 He3. split; [rewrite He3; by destruct Hl|]. exists hv3, hf'. split; [done|]. split; [done|].
    unfold one_more_node. rewrite <-Horc. destruct Hh1 as [Hw1 _].
    destruct (head (w_orc w1)) as [[code|hint]|]; [done|..];
      (destruct Hc as (a & Ha & ->); exists a; split; [|done]; rewrite Hw1 in Ha; by apply lookup_union_None in Ha as [_ ?]). }
  split_and!.
  - unfold lst_assign_n. rbind. eapply runs_lst_new; [exact Hh|exact Ho|].
    intros t hv1 _ Ho1 Hh1. rbind. eapply (runs_lst_swap cf _ al t [] hdr xs); [exact Hh1|exact Ho1|]. intros hv2 Ho2 Hh2.
    assert (Ho3 : lists_own al ((hdr, []) :: (t, xs) :: (h2, ys) :: R) hv2) by (eapply own_perm; [|exact Ho2]; apply perm_swap).
    destruct n as [|n]; [lia|]. rbind. cbn [push_n_loop]. eapply runs_push_stale; [exact Ho3|exact Hh2|done|].
    intros w' Hl. by eapply Hend.
  - unfold lst_assign_args. rbind. eapply runs_lst_new; [exact Hh|exact Ho|].
    intros t hv1 _ Ho1 Hh1. rbind. eapply (runs_lst_swap cf _ al t [] hdr xs); [exact Hh1|exact Ho1|]. intros hv2 Ho2 Hh2.
    assert (Ho3 : lists_own al ((hdr, []) :: (t, xs) :: (h2, ys) :: R) hv2) by (eapply own_perm; [|exact Ho2]; apply perm_swap).
    destruct args as [|y args]; [done|]. rbind. cbn [push_args_loop]. eapply runs_push_stale; [exact Ho3|exact Hh2|done|].
    intros w' Hl. by eapply Hend.
  - assert (Ho' : lists_own al ((h2, ys) :: (hdr, xs) :: R) hv) by (eapply own_perm; [|exact Ho]; apply perm_swap).
    unfold lst_copy. rbind. eapply runs_begin; [exact Hh|exact Ho'|]. rbind. eapply runs_end; [exact Hh|exact Ho'|].
    unfold lst_assign_nodes. rbind. eapply runs_lst_new; [exact Hh|exact Ho|].
    intros t hv1 _ Ho1 Hh1. rbind. eapply (runs_lst_swap cf _ al t [] hdr xs); [exact Hh1|exact Ho1|]. intros hv2 Ho2 Hh2.
    assert (Ho3 : lists_own al ((hdr, []) :: (t, xs) :: (h2, ys) :: R) hv2) by (eapply own_perm; [|exact Ho2]; apply perm_swap).
    assert (Ho4 : lists_own al ((h2, ys) :: (hdr, []) :: (t, xs) :: R) hv2) by (eapply own_perm; [|exact Ho3]; perm_solve).
    rbind. eapply runs_heap_fuel; [exact Hh2|exact Ho3|]. intros fuel Hfu.
    destruct fuel as [|fuel]; [lia|]. rbind. cbn [push_nodes_loop]. destruct ys as [|[y v] ys]; [done|].
    rbind. eapply runs_it_eq; [exact Hh2|exact Ho4|..].
    { apply (hdx_in h2 [] ((y, v) :: ys)). } { by left. }
    rewrite bool_decide_false by (by eapply (own_hdr_ne _ _ [])).
    rbind. eapply runs_check_own; [exact Hh2|exact Ho4|apply (node_in h2 [] y v ys)|].
    eapply runs_push_stale; [exact Ho3|exact Hh2|done|].
    intros w' Hl. by eapply Hend.
Qed.
Print Assumptions C16_stale_list_assign.

Example C16_stale_list_assign_example :
  lists_own 0 ex_ls (lists_heap 0 ex_ls) /\ heap_is (stale (lw1 [EvOk 50])) (lists_heap 0 ex_ls) ∅ /\
  runs (do! lst_copy lcD oA oB in let! l := lst_walk lcD oA in let! r := lst_walk lcD oB in do! lst_destroy oA in do! lst_destroy oB in ret (l, length r)) (stale (lw1 [EvOk 50])) (fun r w' =>
    r = ([], length exB) /\ w_heap w' = {[ 50%positive := LCell None None (LNode 0 None) ]}).
Proof. split; [apply ex_own|]. split; [apply (ex_heap [])|]. compute_run. Qed.
