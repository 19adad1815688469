(** * C20: inserting a range of list nodes

    The range [first, last) is given by list iterators and read while nodes are
    inserted ([lst_insert_nodes], ListIter.v).  The nodes come out in reverse
    order (the finding of PropList.v); a range of the list itself around the
    position is read on into the copies just made. *)
From Verif Require Import ListIter PropList.

(** What was inserted if the values [T] are inserted one after the other. *)
Definition in_reverse {V} (cf : cfg V) (T : list V) (n : list (addr * V)) (err : option error) : Prop :=
  match err with
  | None => n.*2 = reverse T
  | Some e => node_error cf e /\ exists k, k < length T /\ n.*2 = reverse (take k T)
  end.

Lemma inserted_post {V} (cf : cfg V) al hdr p q R hf T :
  inserted cf al hdr p q R hf T (fun _ w' => exists n, lists_are al ((hdr, p ++ n ++ q) :: R) hf w' /\ in_reverse cf T n (w_err w')).
Proof.
  split.
  - intros ms hv' w' Hm Ho Hh He. exists ms. split; [by exists hv'|]. by rewrite He.
  - intros k ms hv' w' e Hk Hm Ho Hh He Hne. exists ms. split; [by exists hv'|]. rewrite He. simpl. eauto.
Qed.

Lemma drop_past {A} (l k : list A) n : drop (length l + n) (l ++ k) = drop n k.
Proof. by rewrite <-drop_drop, drop_app. Qed.

(** From another list *)
Theorem C20_insert_nodes_partial V (cf : cfg V) al hdr xs h2 l m r R hv hf w i :
  lists_own al ((hdr, xs) :: (h2, l ++ m ++ r) :: R) hv -> heap_is w hv hf -> w_err w = None ->
  runs (lst_insert_nodes cf (Lst al hdr) (lpos hdr xs i) (lpos h2 (l ++ m ++ r) (length l)) (lpos h2 (l ++ m ++ r) (length (l ++ m)))) w (fun _ w' =>
    exists n, lists_are al ((hdr, take i xs ++ n ++ drop i xs) :: (h2, l ++ m ++ r) :: R) hf w' /\ in_reverse cf m.*2 n (w_err w')).
Proof.
  intros Ho Hh He. rewrite lpos_hdx, (lpos_app h2 l (m ++ r)), (assoc_L (++) l m r), (lpos_app h2 (l ++ m) r), <-(assoc_L (++)).
  eapply (runs_insert_nodes cf w al hdr (take i xs) (drop i xs)); [done|by rewrite take_drop|done| |apply inserted_post].
  left. left.
Qed.
Print Assumptions C20_insert_nodes_partial.

(** From the list itself.  If the position is outside the range, or at its
    beginning, the values read are those of the range.  Otherwise the part of the
    range in front of the position is read, then the copies of it, then the rest. *)
Theorem C20_insert_own_nodes_partial V (cf : cfg V) al hdr l m r R hv hf w i :
  let xs := l ++ m ++ r in
  let c := i - length l in
  let T := if decide (i <= length (l ++ m)) then take c m.*2 ++ reverse (take c m.*2) ++ drop c m.*2 else m.*2 in
  lists_own al ((hdr, xs) :: R) hv -> heap_is w hv hf -> w_err w = None -> i <= length xs ->
  runs (lst_insert_nodes cf (Lst al hdr) (lpos hdr xs i) (lpos hdr xs (length l)) (lpos hdr xs (length (l ++ m)))) w (fun _ w' =>
    exists n, lists_are al ((hdr, take i xs ++ n ++ drop i xs) :: R) hf w' /\ in_reverse cf T n (w_err w')).
Proof.
  intros xs c T Ho Hh He Hi. unfold xs.
  rewrite lpos_hdx, (lpos_app hdr l (m ++ r)). rewrite (assoc_L (++) l m r), (lpos_app hdr (l ++ m) r), <-(assoc_L (++)).
  assert (i <= length l \/ length l < i <= length (l ++ m) \/ length (l ++ m) < i) as [Hl|[[Hl Hm]|Hm]] by lia.
  { assert (T = m.*2) as ->.
    { unfold T, c. rewrite decide_True by (rewrite app_length; lia). by replace (i - length l) with 0 by lia. }
    rewrite (drop_app_le l), (take_app_le l) by done.
    eapply (runs_insert_nodes cf w al hdr (take i l) (drop i l ++ m ++ r)); [done|by rewrite (assoc_L (++)), take_drop|done| |apply inserted_post].
    right; left. split; [done|]. exists (drop i l). split; [done|symmetry; apply take_drop]. }
  { unfold T. rewrite decide_True by done. rewrite app_length in Hm. replace i with (length l + c) by lia.
    rewrite take_add_app, drop_past, (take_app_le m), (drop_app_le m) by (first [done|lia]).
    rewrite <-fmap_take, <-fmap_drop.
    pose proof (runs_insert_around cf w al hdr l (take c m) (drop c m) r R hv hf) as Hr. rewrite (assoc_L (++) (take c m)), take_drop in Hr.
    eapply Hr; [done..|]. apply inserted_post. }
  unfold T. rewrite decide_False by lia. assert (exists d, i = length (l ++ m) + d /\ 0 < d /\ d <= length r) as (d & -> & Hd & Hd').
  { exists (i - length (l ++ m)). unfold xs in Hi. rewrite !app_length in *. lia. }
  rewrite (assoc_L (++) l m r), take_add_app, drop_past by done.
  eapply (runs_insert_nodes cf w al hdr ((l ++ m) ++ take d r) (drop d r)); [done|by rewrite <-!(assoc_L (++)), take_drop|done| |apply inserted_post].
  right; right. split; [done|]. exists (take d r). split_and!.
  - intros E%(f_equal length). rewrite take_length in E. simpl in E. lia.
  - by rewrite <-(assoc_L (++)).
  - by rewrite take_drop.
Qed.
Print Assumptions C20_insert_own_nodes_partial.

(** Inserting a list in front of its own end makes it three times as long, not
    twice. *)
Theorem C20_insert_self_refuted : exists (cf : cfg nat) al hdr xs hv w,
  lists_own al [(hdr, xs)] hv /\ heap_is w hv ∅ /\ w_err w = None /\ length xs = 2 /\
  runs (do! lst_insert_nodes cf (Lst al hdr) (lpos hdr xs 2) (lpos hdr xs 0) (lpos hdr xs 2) in lst_walk cf (Lst al hdr)) w (fun l w' =>
    w_err w' = None /\ length l = 6).
Proof.
  exists lcD, 0, 10%positive, exB, (lists_heap 0 [(10%positive, exB)]), (World (lists_heap 0 [(10%positive, exB)]) [] None 0 0).
  split; [apply own_b_sound; by vm_compute|]. split; [apply heap_all|]. split; [done|]. split; [done|]. compute_run.
Qed.
Print Assumptions C20_insert_self_refuted.

(** The list 1 2 3 4, and 7 8 *)
Example C20_nodes_example :
  lists_own 0 ex_ls (lists_heap 0 ex_ls) /\
  runs (do! lst_insert_nodes lcD oA (lpos 1 exA 1) (lpos 10 exB 0) (lpos 10 exB 2) in lst_walk lcD oA) (lw1 []) (fun l w' =>
    w_err w' = None /\ l = [1; 8; 7; 2; 3; 4]) /\
  (* 2 3 in front of the 1, of the 2, of the 3 and of the 4, and behind *)
  runs (do! lst_insert_nodes lcD oA (lpos 1 exA 0) (lpos 1 exA 1) (lpos 1 exA 3) in lst_walk lcD oA) (lw1 []) (fun l w' =>
    w_err w' = None /\ l = [3; 2; 1; 2; 3; 4]) /\
  runs (do! lst_insert_nodes lcD oA (lpos 1 exA 1) (lpos 1 exA 1) (lpos 1 exA 3) in lst_walk lcD oA) (lw1 []) (fun l w' =>
    w_err w' = None /\ l = [1; 3; 2; 2; 3; 4]) /\
  runs (do! lst_insert_nodes lcD oA (lpos 1 exA 2) (lpos 1 exA 1) (lpos 1 exA 3) in lst_walk lcD oA) (lw1 []) (fun l w' =>
    w_err w' = None /\ l = [1; 2; 3; 2; 2; 3; 4]) /\
  runs (do! lst_insert_nodes lcD oA (lpos 1 exA 3) (lpos 1 exA 1) (lpos 1 exA 3) in lst_walk lcD oA) (lw1 []) (fun l w' =>
    w_err w' = None /\ l = [1; 2; 3; 2; 3; 3; 2; 4]) /\
  runs (do! lst_insert_nodes lcD oA (lpos 1 exA 4) (lpos 1 exA 1) (lpos 1 exA 3) in lst_walk lcD oA) (lw1 []) (fun l w' =>
    w_err w' = None /\ l = [1; 2; 3; 4; 3; 2]) /\
  (* the third node cannot be made *)
  runs (do! lst_insert_nodes lcD oA (lpos 1 exA 3) (lpos 1 exA 1) (lpos 1 exA 3) in lst_walk lcD oA) (lw1 [EvOk 30; EvOk 1; EvOk 31; EvOk 1; EvFail 5]) (fun l w' =>
    w_err w' = Some EBadAlloc /\ l = [1; 2; 3; 3; 2; 4]).
Proof. split; [apply own_b_sound; by vm_compute|]. split_and!; compute_run. Qed.
