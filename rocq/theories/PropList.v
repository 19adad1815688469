(** * Properties C17-C29: list

    Stated over the model (ListModel.v) with the vocabulary of ListSpec.v and
    ListHistSpec.v.  [runs m w Q]: the call [m], started in machine state [w],
    returns without undefined behaviour or failing assertion, and [Q] holds of
    its result and the state afterwards.  [lists_own al ls hv]: the part [hv]
    of the heap consists of exactly the lists [ls], each given by its header
    (which is also its end()) and its nodes with their values in order. *)
From Verif Require Import ListExtra.

(** ** Concrete lists for the examples and counterexamples *)

Definition lcD : cfg nat := Cfg true 8 (2^62) 0 Direct 0.
(** the same with assertions compiled out *)
Definition lcR : cfg nat := Cfg false 8 (2^62) 0 Direct 0.
(** with elements whose copies cannot fail *)
Definition lcN : cfg nat := Cfg true 8 (2^62) 0 Nothrow 0.
Definition lw0 (orc : list event) : world (lcell nat) := World ∅ orc None 0 0.
(** the list 1,2,3,4 with header 1 and the list 7,8 with header 10 *)
Definition nd (a : positive) (v : nat) : addr * nat := (a, v).
Definition exA : list (addr * nat) := [nd 2 1; nd 3 2; nd 4 3; nd 5 4].
Definition exB : list (addr * nat) := [nd 11 7; nd 12 8].
Definition ex_ls : list (addr * list (addr * nat)) := [(1%positive, exA); (10%positive, exB)].
Definition lw1 (orc : list event) : world (lcell nat) := World (lists_heap 0 ex_ls) orc None 0 0.
Definition oA := Lst 0 1.
Definition oB := Lst 0 10.

(** run a history and look at list [i] *)
Definition look {A} (m : M (lcell nat) (list lst_obj * A)) (i : nat) : M (lcell nat) (A * list nat) :=
  let! r := m in
  match r.1 !! i with
  | Some o => let! l := lst_walk lcD o in ret (r.2, l)
  | None => fail FNull
  end.

Lemma ex_own : lists_own 0 ex_ls (lists_heap 0 ex_ls).
Proof. apply own_b_sound. by vm_compute. Qed.
Lemma ex_heap orc : heap_is (lw1 orc) (lists_heap 0 ex_ls) ∅.
Proof. apply (heap_all (lw1 orc)). Qed.

(** ** C17 *)

Theorem C17_list_history V (cf : cfg V) comp k ops w :
  runs (list_program cf comp k ops) w (fun r w' =>
    length r.1 = k /\
    exists ls, lops_spec comp ops (replicate k []) r.2 ls /\ length ls = k /\
      (forall i o l, r.1 !! i = Some o -> ls !! i = Some l -> lst_shows cf w' o l) /\
      runs (destroy_lists r.1) w' (fun _ w'' => w_heap w'' = w_heap w)).
Proof.
  unfold list_program. rbind. eapply runs_new_row; [apply heap_nothing|apply own_empty|].
  intros hds hv' Hl Hr Hh. rbind. eapply runs_exec_lops; [done..|].
  intros es xss' hv'' w' Hr' Hh' Hs. apply runs_ret. cbn [fst snd]. split; [by rewrite fmap_length|].
  exists (vals xss'). split_and!.
  - replace (vals (replicate k [])) with (replicate k ([] : list V)) in Hs; [done|].
    unfold vals. by rewrite fmap_replicate.
  - unfold vals. rewrite fmap_length. rewrite <-Hl. symmetry. apply Hr'.
  - intros i o l Hi Hls. rewrite list_lookup_fmap in Hi. destruct (hds !! i) as [h|] eqn:Eh; simplify_eq/=.
    rewrite vals_lookup in Hls. destruct (xss' !! i) as [xs|] eqn:Ex; simplify_eq/=. by eapply row_shows.
  - by eapply runs_destroy_row.
Qed.
Print Assumptions C17_list_history.

(** two lists, an allocation failure, a construction failure, and an argument
    that refers to an element of the list being assigned to *)
Example C17_example :
  let m := list_program lcD Nat.ltb 2
    [LoPushBack 0 (HVal 3); LoPushFront 0 (HVal 1); LoPushBack 0 (HVal 9); LoInsert 0 1 (HVal 9); LoInsert 0 1 (HElem 0 1);
     LoPushBack 1 (HVal 2); LoMerge 0 1; LoSort 0; LoSpliceOne 1 0 0 1; LoAssign 0 2 (HElem 0 2)] in
  let w := lw0 [EvOk 5; EvOk 1; EvOk 6; EvOk 1; EvFail 0; EvOk 9; EvFail 7] in
  let es := [None; None; Some EBadAlloc; Some (EElem 7); None; None; None; None; None; None] in
  runs (look m 0) w (fun r w' => r = (es, [3; 3])) /\
  runs (look m 1) w (fun r w' => r = (es, [2])).
Proof. cbv zeta. split; compute_run. Qed.

(** ** C18 *)

Theorem C18_insert_strong V (cf : cfg V) al hdr xs R hv hf w i x v :
  lists_own al ((hdr, xs) :: R) hv -> heap_is w hv hf -> w_err w = None -> arg_in ((hdr, xs) :: R) hf x v ->
  runs (lst_insert cf (Lst al hdr) (lpos hdr xs i) x) w (fun it w' =>
    match w_err w' with
    | None => w_heap w !! it = None /\ lists_are al ((hdr, take i xs ++ (it, v) :: drop i xs) :: R) hf w'
    | Some e => node_error cf e /\ it = hdr /\ w_heap w' = w_heap w
    end).
Proof.
  intros Ho Hh He Hx. rewrite lpos_hdx. eapply (runs_insert cf w al hdr (take i xs) (drop i xs)); rewrite ?take_drop; [done..| |].
  - intros a hv' w' Ha Ho' Hh' He' _ _. rewrite He'. split; [done|]. by exists hv'.
  - intros w' e Hw' He' Hne _. by rewrite He'.
Qed.
Print Assumptions C18_insert_strong.

Theorem C18_push_strong V (cf : cfg V) al hdr xs R hv hf w x v :
  lists_own al ((hdr, xs) :: R) hv -> heap_is w hv hf -> w_err w = None -> arg_in ((hdr, xs) :: R) hf x v ->
  runs (lst_push_back cf (Lst al hdr) x) w (fun _ w' =>
    match w_err w' with
    | None => exists a, w_heap w !! a = None /\ lists_are al ((hdr, xs ++ [(a, v)]) :: R) hf w'
    | Some e => node_error cf e /\ w_heap w' = w_heap w
    end) /\
  runs (lst_push_front cf (Lst al hdr) x) w (fun _ w' =>
    match w_err w' with
    | None => exists a, w_heap w !! a = None /\ lists_are al ((hdr, (a, v) :: xs) :: R) hf w'
    | Some e => node_error cf e /\ w_heap w' = w_heap w
    end).
Proof.
  intros Ho Hh He Hx. split; [eapply runs_push_back|eapply runs_push_front]; try done.
  - intros a hv' w' Ha Ho' Hh' He' _ _. rewrite He'. exists a. split; [done|]. by exists hv'.
  - intros w' e Hw' He' Hne _. by rewrite He'.
  - intros a hv' w' Ha Ho' Hh' He' _ _. rewrite He'. exists a. split; [done|]. by exists hv'.
  - intros w' e Hw' He' Hne _. by rewrite He'.
Qed.
Print Assumptions C18_push_strong.

(** the copy of the element fails; the argument is an element of another list *)
Example C18_example :
  let w := lw1 [EvOk 20; EvFail 3] in
  lists_own 0 ex_ls (lists_heap 0 ex_ls) /\ heap_is w (lists_heap 0 ex_ls) ∅ /\ arg_in ex_ls ∅ (LARef 11) 7 /\
  runs (lst_insert lcD oA (lpos 1 exA 2) (LARef 11)) w (fun it w' =>
    it = 1%positive /\ w_err w' = Some (EElem 3) /\ w_heap w' = w_heap w) /\
  runs (lst_insert lcD oA (lpos 1 exA 2) (LARef 11)) (lw1 [EvOk 20]) (fun it w' =>
    it = 20%positive /\ w_err w' = None /\
    w_heap w' = lists_heap 0 [(1%positive, [nd 2 1; nd 3 2; nd 20 7; nd 4 3; nd 5 4]); (10%positive, exB)]).
Proof.
  split; [apply ex_own|]. split; [apply ex_heap|]. split; [left; set_solver|]. cbv zeta. split; compute_run.
Qed.

(** ** C19 *)

Theorem C19_elements_stay V (cf : cfg V) comp op hds xss hv hf w :
  length hds = length xss -> lists_own (c_dflt cf) (zip hds xss) hv -> heap_is w hv hf -> w_err w = None ->
  runs (exec_lop cf comp op (Lst (c_dflt cf) <$> hds)) w (fun _ w' =>
    exists xss', length hds = length xss' /\ lists_are (c_dflt cf) (zip hds xss') hf w' /\
      forall a v, (a, v) ∈ concat xss -> ~ lop_kills op xss (a, v) ->
        (a, v) ∈ concat xss' /\ it_deref cf a w' = Done v w').
Proof.
  intros Hl Ho Hh He. eapply runs_mono; [by eapply runs_exec_lop|].
  intros _ w' (xss' & hv' & [Hl' Ho'] & Hh' & _ & Hk). exists xss'. split; [done|]. split; [by exists hv'|].
  intros a v Hin Hnk. assert (Hin' : (a, v) ∈ concat xss') by (by destruct (Hk _ Hin)).
  split; [done|]. eapply own_deref; [done..|]. by rewrite zip_contents.
Qed.
Print Assumptions C19_elements_stay.

(** erase, then sort: the iterators 3 and 5 still designate 2 and 4 *)
Example C19_example :
  ~ lop_kills (LoErase 0 2) [exA; exB] (nd 5 4) /\ lop_kills (LoErase 0 2) [exA; exB] (nd 4 3) /\
  runs (do! exec_lop lcD (fun x y => y <? x) (LoErase 0 2) [oA; oB] in
        do! exec_lop lcD (fun x y => y <? x) (LoSort 0) [oA; oB] in
        let! x := it_deref lcD 3 in let! y := it_deref lcD 5 in let! l := lst_walk lcD oA in ret (x, y, l)) (lw1 [])
    (fun r _ => r = (2, 4, [4; 2; 1])).
Proof. split; [by vm_compute|]. split; [by vm_compute|]. compute_run. Qed.

(** ** C20: false: the range arrives in reverse *)

(** What happens for every range: its elements end up in front of the
    position, but in reverse order (so in order only for ranges of at most
    one element). *)
Theorem C20_insert_range_partial V (cf : cfg V) al hdr xs R hv hf w i ys vs :
  lists_own al ((hdr, xs) :: R) hv -> heap_is w hv hf -> w_err w = None -> Forall2 (arg_in ((hdr, xs) :: R) hf) ys vs ->
  runs (lst_insert_range cf (Lst al hdr) (lpos hdr xs i) ys) w (fun _ w' =>
    exists m, lists_are al ((hdr, take i xs ++ m ++ drop i xs) :: R) hf w' /\
      match w_err w' with
      | None => m.*2 = reverse vs /\ (length vs <= 1 -> m.*2 = vs)
      | Some e => node_error cf e /\ exists k, k < length vs /\ m.*2 = reverse (take k vs)
      end).
Proof.
  intros Ho Hh He Hx. rewrite lpos_hdx.
  eapply (runs_insert_range cf ys vs w al hdr (take i xs) (drop i xs)); rewrite ?take_drop; [done..| |].
  - intros m hv' w' Hm Ho' Hh' He'. exists m. split; [by exists hv'|]. rewrite He'. split; [done|].
    intros Hl. rewrite Hm. destruct vs as [|? [|]]; simpl in *; [done..|lia].
  - intros k m hv' w' e Hk Hm Ho' Hh' He' Hne. exists m. split; [by exists hv'|]. rewrite He'. eauto.
Qed.
Print Assumptions C20_insert_range_partial.

Theorem C20_insert_range_refuted : exists (cf : cfg nat) al hdr xs hv w ys,
  lists_own al [(hdr, xs)] hv /\ heap_is w hv ∅ /\ w_err w = None /\
  runs (do! lst_insert_range cf (Lst al hdr) (lpos hdr xs 1) (map LAVal ys) in lst_walk cf (Lst al hdr)) w (fun l w' =>
    w_err w' = None /\ l <> take 1 xs.*2 ++ ys ++ drop 1 xs.*2).
Proof.
  exists lcD, 0, 10%positive, exB, (lists_heap 0 [(10%positive, exB)]), (World (lists_heap 0 [(10%positive, exB)]) [] None 0 0), [1; 2; 3].
  split; [apply own_b_sound; by vm_compute|]. split; [apply heap_all|]. split; [done|]. compute_run.
Qed.
Print Assumptions C20_insert_range_refuted.

Example C20_example :
  Forall2 (arg_in ex_ls ∅) [LAVal 5; LARef 11] [5; 7] /\
  runs (do! lst_insert_range lcD oA (lpos 1 exA 2) [LAVal 5; LARef 11] in lst_walk lcD oA) (lw1 []) (fun l w' =>
    w_err w' = None /\ l = [1; 2; 7; 5; 3; 4]).
Proof. split; [repeat constructor; set_solver|]. compute_run. Qed.

(** ** C21 *)

Theorem C21_insert_n V (cf : cfg V) al hdr xs R hv hf w i n x v :
  lists_own al ((hdr, xs) :: R) hv -> heap_is w hv hf -> w_err w = None -> arg_in ((hdr, xs) :: R) hf x v ->
  runs (lst_insert_n cf (Lst al hdr) (lpos hdr xs i) n x) w (fun _ w' =>
    exists k m, m.*2 = replicate k v /\ lists_are al ((hdr, take i xs ++ m ++ drop i xs) :: R) hf w' /\
      match w_err w' with
      | None => k = n
      | Some e => k < n /\ node_error cf e
      end).
Proof.
  intros Ho Hh He Hx. rewrite lpos_hdx.
  eapply (runs_insert_n cf n w al hdr (take i xs) (drop i xs)); rewrite ?take_drop; [done..| |].
  - intros m hv' w' Hm Ho' Hh' He'. exists n, m. split; [done|]. split; [by exists hv'|]. by rewrite He'.
  - intros k m hv' w' e Hk Hm Ho' Hh' He' Hne. exists k, m. split; [done|]. split; [by exists hv'|]. by rewrite He'.
Qed.
Print Assumptions C21_insert_n.

(** the second allocation fails *)
Example C21_example :
  arg_in ex_ls ∅ (LARef 3) 2 /\
  runs (do! lst_insert_n lcD oA (lpos 1 exA 3) 3 (LARef 3) in lst_walk lcD oA) (lw1 [EvOk 20; EvOk 1; EvFail 1]) (fun l w' =>
    w_err w' = Some EBadAlloc /\ l = [1; 2; 3; 2; 4]) /\
  runs (do! lst_insert_n lcD oA (lpos 1 exA 3) 3 (LARef 3) in lst_walk lcD oA) (lw1 []) (fun l w' =>
    w_err w' = None /\ l = [1; 2; 3; 2; 2; 2; 4]).
Proof. split; [left; set_solver|]. split; compute_run. Qed.

(** ** C22 *)

Lemma relink_post {V} al ls hf (w : world (lcell V)) :
  relinked al ls hf w tt (fun _ w' => lists_are al ls hf w' /\ no_calls w w').
Proof. intros hv' Ho' Hh'. split; [by exists hv'|done]. Qed.

Lemma lpos_at {V} hdr (xs l r : list (addr * V)) : xs = l ++ r -> lpos hdr xs (length l) = hdx r.*1 hdr.
Proof. intros ->. apply lpos_app. Qed.

Theorem C22_splice_all V (cf : cfg V) al h1 xs h2 ys R hv hf w i al1 al2 :
  lists_own al ((h1, xs) :: (h2, ys) :: R) hv -> heap_is w hv hf ->
  runs (lst_splice cf (Lst al1 h1) (lpos h1 xs i) (Lst al2 h2)) w (fun _ w' =>
    lists_are al ((h1, take i xs ++ ys ++ drop i xs) :: (h2, []) :: R) hf w' /\ no_calls w w').
Proof.
  intros Ho Hh. rewrite lpos_hdx. eapply (runs_splice cf w al h1 (take i xs) (drop i xs) h2 ys R); [done|by rewrite take_drop|].
  apply relink_post.
Qed.
Print Assumptions C22_splice_all.

Theorem C22_splice_one V (cf : cfg V) al h1 xs h2 l x v r R hv hf w i :
  lists_own al ((h1, xs) :: (h2, l ++ (x, v) :: r) :: R) hv -> heap_is w hv hf ->
  runs (lst_splice_one cf (lpos h1 xs i) x) w (fun _ w' =>
    lists_are al ((h1, take i xs ++ (x, v) :: drop i xs) :: (h2, l ++ r) :: R) hf w' /\ no_calls w w').
Proof.
  intros Ho Hh. rewrite lpos_hdx. eapply (runs_splice_one_other cf w al h1 (take i xs) (drop i xs) h2 l x v r R); [done|by rewrite take_drop|].
  apply relink_post.
Qed.
Print Assumptions C22_splice_one.

Theorem C22_splice_range V (cf : cfg V) al h1 xs h2 l m r R hv hf w i :
  lists_own al ((h1, xs) :: (h2, l ++ m ++ r) :: R) hv -> heap_is w hv hf ->
  runs (lst_splice_range cf (lpos h1 xs i) (lpos h2 (l ++ m ++ r) (length l)) (lpos h2 (l ++ m ++ r) (length (l ++ m)))) w
    (fun _ w' => lists_are al ((h1, take i xs ++ m ++ drop i xs) :: (h2, l ++ r) :: R) hf w' /\ no_calls w w').
Proof.
  intros Ho Hh. rewrite (lpos_app h2 l (m ++ r)). rewrite (assoc_L (++)), (lpos_app h2 (l ++ m) r), lpos_hdx.
  eapply (runs_splice_range_other cf w al h1 (take i xs) (drop i xs) h2 l m r R); [done|by rewrite take_drop|].
  apply relink_post.
Qed.
Print Assumptions C22_splice_range.

(** within one list: to any position *)
Theorem C22_splice_one_self V (cf : cfg V) al hdr l m r x v R hv hf w :
  heap_is w hv hf ->
  (* to a position in front of it *)
  (lists_own al ((hdr, l ++ m ++ (x, v) :: r) :: R) hv -> m <> [] ->
   runs (lst_splice_one cf (lpos hdr (l ++ m ++ (x, v) :: r) (length l)) x) w (fun _ w' =>
     lists_are al ((hdr, l ++ (x, v) :: m ++ r) :: R) hf w' /\ no_calls w w')) /\
  (* to a position behind it *)
  (lists_own al ((hdr, l ++ (x, v) :: m ++ r) :: R) hv -> m <> [] ->
   runs (lst_splice_one cf (lpos hdr (l ++ (x, v) :: m ++ r) (length (l ++ (x, v) :: m))) x) w (fun _ w' =>
     lists_are al ((hdr, l ++ m ++ (x, v) :: r) :: R) hf w' /\ no_calls w w')) /\
  (* to its own position, and to the next one *)
  (lists_own al ((hdr, l ++ (x, v) :: r) :: R) hv ->
   forall pos, pos = x \/ pos = lpos hdr (l ++ (x, v) :: r) (S (length l)) ->
   runs (lst_splice_one cf pos x) w (fun _ w' => w' = w)).
Proof.
  intros Hh. split_and!.
  - intros Ho Hm. rewrite (lpos_app hdr l (m ++ (x, v) :: r)), (hdx_app_l m _ _ hdr Hm).
    eapply (runs_splice_one_front cf w al hdr l m x v r R); [done..|]. apply relink_post.
  - intros Ho Hm. rewrite (app_comm_cons m), (assoc_L (++)), (lpos_app hdr (l ++ (x, v) :: m) r).
    eapply (runs_splice_one_back cf w al hdr l x v m r R); [done..|]. apply relink_post.
  - intros Ho pos Hpos. eapply (runs_splice_one_here cf w al hdr l x v r R); [done..| |done].
    destruct Hpos as [->| ->]; [by left|right].
    replace (S (length l)) with (length (l ++ [(x, v)])) by (rewrite app_length; simpl; lia).
    replace (l ++ (x, v) :: r) with ((l ++ [(x, v)]) ++ r) by (by rewrite <-(assoc_L (++))). apply lpos_app.
Qed.
Print Assumptions C22_splice_one_self.

(** within one list: to any position in front of the range, and to any
    position behind it except the one right behind it *)
Theorem C22_splice_range_self_partial V (cf : cfg V) al hdr l x m r R hv hf w :
  heap_is w hv hf -> x <> [] ->
  (lists_own al ((hdr, l ++ x ++ m ++ r) :: R) hv ->
   let xs := l ++ x ++ m ++ r in
   runs (lst_splice_range cf (lpos hdr xs (length l)) (lpos hdr xs (length (l ++ x))) (lpos hdr xs (length (l ++ x ++ m)))) w
     (fun _ w' => lists_are al ((hdr, l ++ m ++ x ++ r) :: R) hf w' /\ no_calls w w')) /\
  (lists_own al ((hdr, l ++ m ++ x ++ r) :: R) hv ->
   let xs := l ++ m ++ x ++ r in
   runs (lst_splice_range cf (lpos hdr xs (length (l ++ m ++ x))) (lpos hdr xs (length l)) (lpos hdr xs (length (l ++ m)))) w
     (fun _ w' => lists_are al ((hdr, l ++ x ++ m ++ r) :: R) hf w' /\ no_calls w w')).
Proof.
  intros Hh Hx. split; intros Ho xs.
  - rewrite (lpos_at hdr xs l (x ++ m ++ r)), (hdx_app_l x _ _ hdr Hx) by done.
    rewrite (lpos_at hdr xs (l ++ x) (m ++ r)) by (unfold xs; by rewrite <-!(assoc_L (++))).
    rewrite (lpos_at hdr xs (l ++ x ++ m) r) by (unfold xs; by rewrite <-!(assoc_L (++))).
    eapply (runs_splice_range_front cf w al hdr l x m r R); [done..|]. apply relink_post.
  - rewrite (lpos_at hdr xs l ((m ++ x) ++ r)), (hdx_app_l (m ++ x) r _ hdr) by (first [by destruct m|unfold xs; by rewrite <-!(assoc_L (++))]).
    rewrite (lpos_at hdr xs (l ++ m) (x ++ r)), (hdx_app_l x r _ hdr Hx) by (unfold xs; by rewrite <-!(assoc_L (++))).
    rewrite (lpos_at hdr xs (l ++ m ++ x) r) by (unfold xs; by rewrite <-!(assoc_L (++))).
    eapply (runs_splice_range_back cf w al hdr l m x r R); [done..|]. apply relink_post.
Qed.
Print Assumptions C22_splice_range_self_partial.

(** to the position right behind the range, which should change nothing: an
    assertion fails *)
Theorem C22_splice_range_self_refuted : exists (cf : cfg nat) al hdr xs w,
  lists_own al [(hdr, xs)] (w_heap w) /\ c_dbg cf = true /\
  lst_splice_range cf (lpos hdr xs 2) (lpos hdr xs 0) (lpos hdr xs 2) w = Fault FAssert.
Proof.
  exists lcD, 0, 1%positive, exA, (World (lists_heap 0 [(1%positive, exA)]) [] None 0 0).
  split; [apply own_b_sound; by vm_compute|]. split; [done|]. by vm_compute.
Qed.
Print Assumptions C22_splice_range_self_refuted.

(** ... and without assertions the elements are cut off from the list *)
Theorem C22_splice_range_self_release_refuted : exists (cf : cfg nat) al hdr xs w,
  lists_own al [(hdr, xs)] (w_heap w) /\ c_dbg cf = false /\
  runs (do! lst_splice_range cf (lpos hdr xs 2) (lpos hdr xs 0) (lpos hdr xs 2) in lst_walk cf (Lst al hdr)) w (fun l _ =>
    l <> xs.*2).
Proof.
  exists lcR, 0, 1%positive, exA, (World (lists_heap 0 [(1%positive, exA)]) [] None 0 0).
  split; [apply own_b_sound; by vm_compute|]. split; [done|]. compute_run.
Qed.
Print Assumptions C22_splice_range_self_release_refuted.

Example C22_example :
  (* two elements of the first list to the front of the second *)
  runs (do! lst_splice_range lcD (lpos 10 exB 0) (lpos 1 exA 1) (lpos 1 exA 3) in
        let! l := lst_walk lcD oA in let! r := lst_walk lcD oB in ret (l, r)) (lw1 []) (fun r _ =>
    r = ([1; 4], [2; 3; 7; 8])) /\
  (* the last element of the first list to its front *)
  runs (do! lst_splice_one lcD (lpos 1 exA 0) (lpos 1 exA 3) in lst_walk lcD oA) (lw1 []) (fun r _ =>
    r = [4; 1; 2; 3]) /\
  (* the first two elements of the first list to its end *)
  runs (do! lst_splice_range lcD (lpos 1 exA 4) (lpos 1 exA 0) (lpos 1 exA 2) in lst_walk lcD oA) (lw1 []) (fun r _ =>
    r = [3; 4; 1; 2]) /\
  (* everything *)
  runs (do! lst_splice lcD oA (lpos 1 exA 2) oB in let! l := lst_walk lcD oA in let! r := lst_walk lcD oB in ret (l, r)) (lw1 []) (fun r _ =>
    r = ([1; 2; 7; 8; 3; 4], [])).
Proof. split_and!; compute_run. Qed.

(** ** C23 *)

Theorem C23_merge V (cf : cfg V) comp al h1 xs h2 ys R hv hf w al1 al2 :
  lists_own al ((h1, xs) :: (h2, ys) :: R) hv -> heap_is w hv hf ->
  runs (lst_merge cf comp (Lst al1 h1) (Lst al2 h2)) w (fun _ w' =>
    exists zs, lists_are al ((h1, zs) :: (h2, []) :: R) hf w' /\ no_calls w w' /\
      zs ≡ₚ xs ++ ys /\
      (swo comp -> lsorted comp xs.*2 -> lsorted comp ys.*2 ->
       lsorted comp zs.*2 /\ forall v, rank_of comp v zs = rank_of comp v xs ++ rank_of comp v ys)).
Proof.
  intros Ho Hh. eapply runs_lst_merge; [done|exact Ho|]. intros hv' Ho' Hh'.
  exists (mergef comp xs ys). split; [by exists hv'|]. split; [done|]. split; [apply mergef_perm|].
  intros Hw H1 H2. split.
  - exact (mergef_sorted comp xs ys (fun _ => H1) (fun _ => H2) Hw).
  - intros v. rewrite <-rank_app. exact (proj2 (mergef_stable comp xs ys (fun _ => H1)) Hw v).
Qed.
Print Assumptions C23_merge.

(** ordered by tens: the elements of the first list come first *)
Example C23_example :
  let ls := [(1%positive, [nd 2 11; nd 3 32]); (10%positive, [nd 11 13; nd 12 24; nd 13 35])] in
  let w := World (lists_heap 0 ls) [] None 0 0 in
  let comp x y := x / 10 <? y / 10 in
  lists_own 0 ls (lists_heap 0 ls) /\ heap_is w (lists_heap 0 ls) ∅ /\ swo comp /\ lsorted comp [11; 32] /\ lsorted comp [13; 24; 35] /\
  runs (do! lst_merge lcD comp oA oB in let! l := lst_walk lcD oA in let! r := lst_walk lcD oB in ret (l, r)) w (fun r _ =>
    r = ([11; 13; 24; 32; 35], [])).
Proof.
  cbv zeta. split; [apply own_b_sound; by vm_compute|]. split; [apply (heap_all (World _ _ _ _ _))|].
  split.
  { split_and!; intros; rewrite ?Nat.ltb_lt, ?Nat.ltb_ge in *; lia. }
  split; [|split; [|compute_run]].
  all: intros [|[|[|i]]] [|[|[|j]]] x y Hij Hx Hy; simplify_eq/=; first [lia|done].
Qed.

(** ** C24 *)

Theorem C24_sort V (cf : cfg V) comp al hdr xs R hv hf w al0 :
  lists_own al ((hdr, xs) :: R) hv -> heap_is w hv hf -> (N.of_nat (length xs) < 2 ^ 64)%N ->
  runs (lst_sort cf comp (Lst al0 hdr)) w (fun _ w' =>
    exists ys, lists_are al ((hdr, ys) :: R) hf w' /\ no_calls w w' /\
      ys ≡ₚ xs /\
      (swo comp -> lsorted comp ys.*2 /\ forall v, rank_of comp v ys = rank_of comp v xs)).
Proof.
  intros Ho Hh Hl. eapply runs_lst_sort; [done|exact Ho|done|]. intros ys Hs [Hp Hm] hv' Ho' Hh'.
  exists ys. split; [by exists hv'|]. split; [done|]. split; [done|]. intros Hw. split; [by apply Hs|by apply Hm].
Qed.
Print Assumptions C24_sort.

Example C24_example :
  let ls := [(1%positive, [nd 2 31; nd 3 12; nd 4 33; nd 5 14; nd 6 25; nd 7 16])] in
  let w := World (lists_heap 0 ls) [] None 0 0 in
  let comp x y := x / 10 <? y / 10 in
  lists_own 0 ls (lists_heap 0 ls) /\ heap_is w (lists_heap 0 ls) ∅ /\ swo comp /\
  runs (do! lst_sort lcD comp oA in lst_walk lcD oA) w (fun r _ => r = [12; 14; 16; 25; 31; 33]).
Proof.
  cbv zeta. split; [apply own_b_sound; by vm_compute|]. split; [apply (heap_all (World _ _ _ _ _))|].
  split.
  { split_and!; intros; rewrite ?Nat.ltb_lt, ?Nat.ltb_ge in *; lia. }
  compute_run.
Qed.

(** ** C25 *)

Theorem C25_traversals_agree V (cf : cfg V) comp k ops w :
  runs (list_program cf comp k ops) w (fun r w' =>
    forall i o, r.1 !! i = Some o -> exists l,
      lst_walk cf o w' = Done l w' /\ lst_rwalk cf o w' = Done (reverse l) w' /\ lst_size cf o w' = Done (length l) w').
Proof.
  eapply runs_mono; [apply C17_list_history|]. intros r w' (Hl & ls & _ & Hls & Hsh & _) i o Hi.
  destruct (lookup_lt_is_Some_2 ls i) as [l Hli]; [apply lookup_lt_Some in Hi; lia|].
  exists l. by destruct (Hsh _ _ _ Hi Hli) as (? & _ & ? & ? & _).
Qed.
Print Assumptions C25_traversals_agree.

Example C25_example :
  runs (let! r := list_program lcD Nat.ltb 2 [LoPushBack 0 (HVal 3); LoPushFront 0 (HVal 1); LoInsertN 0 1 2 (HVal 5); LoSpliceRange 1 0 0 1 2; LoSort 1; LoSwap 0 1] in
        let o := default oA (r.1 !! 0) in
        let! a := lst_walk lcD o in let! b := lst_rwalk lcD o in let! n := lst_size lcD o in ret (a, b, n)) (lw0 []) (fun r _ =>
    r = ([5; 5], [5; 5], 2)) /\
  runs (let! a := lst_walk lcD oA in let! b := lst_rwalk lcD oA in let! n := lst_size lcD oA in ret (a, b, n)) (lw1 []) (fun r _ =>
    r = ([1; 2; 3; 4], [4; 3; 2; 1], 4)).
Proof. split; compute_run. Qed.

(** ** C26: the list has a default constructed allocator, or is empty (for other
    lists see C28) *)

Theorem C26_assign_n V (cf : cfg V) al hdr xs R hv hf w n x v :
  al = c_dflt cf \/ xs = [] ->
  lists_own al ((hdr, xs) :: R) hv -> heap_is w hv hf -> w_err w = None -> arg_in ((hdr, xs) :: R) hf x v ->
  runs (lst_assign_n cf (Lst al hdr) n x) w (fun _ w' =>
    exists ys, lists_are al ((hdr, ys) :: R) hf w' /\
      match w_err w' with
      | None => ys.*2 = replicate n v
      | Some e => node_error cf e /\ exists k, k < n /\ ys.*2 = replicate k v
      end).
Proof.
  intros Hal Ho Hh He Hx. eapply runs_assign_n; [done..|intuition|]. split.
  - intros ys hv' w' Hy Ho' Hh' He'. exists ys. split; [by exists hv'|]. by rewrite He'.
  - intros k ys hv' w' e Hk Hy Ho' Hh' He' Hne. exists ys. split; [by exists hv'|]. rewrite He'. split; [done|].
    rewrite replicate_length in Hk. exists k. split; [done|]. rewrite Hy, take_replicate. f_equal. lia.
Qed.
Print Assumptions C26_assign_n.

Theorem C26_assign_range V (cf : cfg V) al hdr xs R hv hf w ys vs :
  al = c_dflt cf \/ xs = [] ->
  lists_own al ((hdr, xs) :: R) hv -> heap_is w hv hf -> w_err w = None -> Forall2 (arg_in ((hdr, xs) :: R) hf) ys vs ->
  runs (lst_assign_args cf (Lst al hdr) ys) w (fun _ w' =>
    exists zs, lists_are al ((hdr, zs) :: R) hf w' /\
      match w_err w' with
      | None => zs.*2 = vs
      | Some e => node_error cf e /\ exists k, k < length vs /\ zs.*2 = take k vs
      end).
Proof.
  intros Hal Ho Hh He Hx. eapply runs_assign_args; [done..|intuition|]. split.
  - intros zs hv' w' Hy Ho' Hh' He'. exists zs. split; [by exists hv'|]. by rewrite He'.
  - intros k zs hv' w' e Hk Hy Ho' Hh' He' Hne. exists zs. split; [by exists hv'|]. rewrite He'. eauto.
Qed.
Print Assumptions C26_assign_range.

(** from another list, all of it or a part *)
Theorem C26_copy V (cf : cfg V) al hdr xs h2 ys R hv hf w al2 :
  al = c_dflt cf \/ xs = [] ->
  lists_own al ((hdr, xs) :: (h2, ys) :: R) hv -> heap_is w hv hf -> w_err w = None ->
  runs (lst_copy cf (Lst al hdr) (Lst al2 h2)) w (fun _ w' =>
    exists zs, lists_are al ((hdr, zs) :: (h2, ys) :: R) hf w' /\
      match w_err w' with
      | None => zs.*2 = ys.*2
      | Some e => node_error cf e /\ exists k, k < length ys /\ zs.*2 = take k ys.*2
      end).
Proof.
  intros Hal Ho Hh He. eapply runs_lst_copy; [done..|intuition|]. split.
  - intros zs hv' w' Hy Ho' Hh' He'. exists zs. split; [by exists hv'|]. by rewrite He'.
  - intros k zs hv' w' e Hk Hy Ho' Hh' He' Hne. exists zs. split; [by exists hv'|]. rewrite He'.
    rewrite fmap_length in Hk. eauto.
Qed.
Print Assumptions C26_copy.

Theorem C26_assign_part V (cf : cfg V) al hdr xs h2 l m r R hv hf w :
  al = c_dflt cf \/ xs = [] ->
  lists_own al ((hdr, xs) :: (h2, l ++ m ++ r) :: R) hv -> heap_is w hv hf -> w_err w = None ->
  runs (lst_assign_nodes cf (Lst al hdr) (lpos h2 (l ++ m ++ r) (length l)) (lpos h2 (l ++ m ++ r) (length (l ++ m)))) w (fun _ w' =>
    exists zs, lists_are al ((hdr, zs) :: (h2, l ++ m ++ r) :: R) hf w' /\
      match w_err w' with
      | None => zs.*2 = m.*2
      | Some e => node_error cf e /\ exists k, k < length m /\ zs.*2 = take k m.*2
      end).
Proof.
  intros Hal Ho Hh He. rewrite (lpos_app h2 l (m ++ r)).
  assert (Hpos : lpos h2 (l ++ m ++ r) (length (l ++ m)) = hdx r.*1 h2) by (rewrite (assoc_L (++)); apply lpos_app).
  rewrite Hpos. eapply (runs_assign_nodes cf w al hdr xs h2 l m r R); [done..|intuition|]. split.
  - intros zs hv' w' Hy Ho' Hh' He'. exists zs. split; [by exists hv'|]. by rewrite He'.
  - intros k zs hv' w' e Hk Hy Ho' Hh' He' Hne. exists zs. split; [by exists hv'|]. rewrite He'.
    rewrite fmap_length in Hk. eauto.
Qed.
Print Assumptions C26_assign_part.

(** from a part of the list itself that does not reach its end *)
Theorem C26_assign_own_part_partial V (cf : cfg V) al hdr l m r R hv hf w :
  al = c_dflt cf ->
  lists_own al ((hdr, l ++ m ++ r) :: R) hv -> heap_is w hv hf -> w_err w = None -> r <> [] ->
  runs (lst_assign_nodes cf (Lst al hdr) (lpos hdr (l ++ m ++ r) (length l)) (lpos hdr (l ++ m ++ r) (length (l ++ m)))) w (fun _ w' =>
    exists zs, lists_are al ((hdr, zs) :: R) hf w' /\
      match w_err w' with
      | None => zs.*2 = m.*2
      | Some e => node_error cf e /\ exists k, k < length m /\ zs.*2 = take k m.*2
      end).
Proof.
  intros Hal Ho Hh He Hr. rewrite (lpos_app hdr l (m ++ r)).
  assert (Hpos : lpos hdr (l ++ m ++ r) (length (l ++ m)) = hdx r.*1 hdr) by (rewrite (assoc_L (++)); apply lpos_app).
  rewrite Hpos. eapply (runs_assign_nodes_self cf w al hdr l m r R); [done..|intuition|]. split.
  - intros zs hv' w' Hy Ho' Hh' He'. exists zs. split; [by exists hv'|]. by rewrite He'.
  - intros k zs hv' w' e Hk Hy Ho' Hh' He' Hne. exists zs. split; [by exists hv'|]. rewrite He'.
    rewrite fmap_length in Hk. eauto.
Qed.
Print Assumptions C26_assign_own_part_partial.

(** l.copy_nothrow(err, l) reads an object that does not exist *)
Theorem C26_self_copy_refuted : exists (cf : cfg nat) hdr xs w,
  lists_own (c_dflt cf) [(hdr, xs)] (w_heap w) /\ w_err w = None /\
  lst_copy cf (Lst (c_dflt cf) hdr) (Lst (c_dflt cf) hdr) w = Fault FRaw.
Proof.
  exists lcD, 1%positive, exA, (World (lists_heap 0 [(1%positive, exA)]) [] None 0 0).
  split; [apply own_b_sound; by vm_compute|]. split; [done|]. by vm_compute.
Qed.
Print Assumptions C26_self_copy_refuted.

Example C26_example :
  (* the element assigned is an element of the list itself *)
  runs (do! lst_assign_n lcD oA 3 (LARef 3) in lst_walk lcD oA) (lw1 []) (fun l w' => l = [2; 2; 2] /\ w_err w' = None) /\
  (* the second copy fails *)
  runs (do! lst_copy lcD oB oA in let! l := lst_walk lcD oB in let! r := lst_walk lcD oA in ret (l, r)) (lw1 [EvOk 20; EvOk 1; EvOk 21; EvFail 5]) (fun r w' =>
    r = ([1], [1; 2; 3; 4]) /\ w_err w' = Some (EElem 5)) /\
  runs (do! lst_assign_nodes lcD oA (lpos 1 exA 1) (lpos 1 exA 3) in lst_walk lcD oA) (lw1 []) (fun l w' => l = [2; 3] /\ w_err w' = None).
Proof. split_and!; compute_run. Qed.

(** ** C27 *)

Theorem C27_swap V (cf : cfg V) al h1 xs h2 ys R hv hf w al1 al2 :
  lists_own al ((h1, xs) :: (h2, ys) :: R) hv -> heap_is w hv hf ->
  runs (lst_swap cf (Lst al1 h1) (Lst al2 h2)) w (fun _ w' =>
    lists_are al ((h1, ys) :: (h2, xs) :: R) hf w' /\ no_calls w w').
Proof. intros Ho Hh. eapply runs_lst_swap; [done|exact Ho|]. apply relink_post. Qed.
Print Assumptions C27_swap.

Theorem C27_swap_self V (cf : cfg V) al h1 xs R hv hf w al1 :
  lists_own al ((h1, xs) :: R) hv -> heap_is w hv hf ->
  runs (lst_swap cf (Lst al1 h1) (Lst al1 h1)) w (fun _ w' =>
    lists_are al ((h1, xs) :: R) hf w' /\ no_calls w w').
Proof. intros Ho Hh. unfold lst_swap. simpl. eapply runs_swap_self; [done|exact Ho|]. apply relink_post. Qed.
Print Assumptions C27_swap_self.

Theorem C27_move_construct V (cf : cfg V) al hdr xs R hv hf w :
  lists_own al ((hdr, xs) :: R) hv -> heap_is w hv hf ->
  runs (lst_move_ctor cf (Lst al hdr)) w (fun o w' =>
    l_alloc o = al /\ lists_are al ((l_hdr o, xs) :: (hdr, []) :: R) hf w' /\ no_calls w w').
Proof.
  intros Ho Hh. eapply runs_lst_move_ctor; [done|exact Ho|]. intros a Ha hv' Ho' Hh'. split; [done|]. split; [by exists hv'|done].
Qed.
Print Assumptions C27_move_construct.

(** The model faults when storage is released twice, when a node is released
    with a live element in it, and when an element is destroyed twice; so the
    lists that remain are exactly the others. *)
Theorem C27_clear_destroy V (cf : cfg V) al hdr xs R hv hf w :
  lists_own al ((hdr, xs) :: R) hv -> heap_is w hv hf ->
  runs (lst_clear cf (Lst al hdr)) w (fun _ w' => lists_are al ((hdr, []) :: R) hf w' /\ no_calls w w') /\
  runs (lst_destroy (Lst al hdr)) w (fun _ w' => lists_are al R hf w' /\ no_calls w w').
Proof.
  intros Ho Hh. split.
  - eapply runs_lst_clear; [done|exact Ho|by left|]. intros hv' Ho' Hh'. split; [by exists hv'|done].
  - eapply runs_lst_destroy; [done|exact Ho|by left|]. intros hv' Ho' Hh'. split; [by exists hv'|done].
Qed.
Print Assumptions C27_clear_destroy.

Example C27_example :
  runs (do! lst_swap lcD oA oB in let! l := lst_walk lcD oA in let! r := lst_walk lcD oB in ret (l, r)) (lw1 []) (fun r _ =>
    r = ([7; 8], [1; 2; 3; 4])) /\
  runs (let! o := lst_move_ctor lcD oA in let! l := lst_walk lcD o in let! r := lst_walk lcD oA in ret (l, r)) (lw1 []) (fun r _ =>
    r = ([1; 2; 3; 4], [])) /\
  runs (do! lst_clear lcD oA in do! lst_destroy oA in lst_destroy oB) (lw1 []) (fun r w' => w_heap w' = ∅).
Proof. split_and!; compute_run. Qed.

(** ** C28 *)

(** The model faults ([FAlloc]) when a node is given to an allocator other
    than the one it came from.  Operations on one list with any allocator
    never do that ... *)
Theorem C28_one_list_partial V (cf : cfg V) al hdr l a v r R hv hf w :
  lists_own al ((hdr, l ++ (a, v) :: r) :: R) hv -> heap_is w hv hf ->
  runs (lst_erase cf (Lst al hdr) a) w (fun _ w' => lists_are al ((hdr, l ++ r) :: R) hf w') /\
  runs (lst_clear cf (Lst al hdr)) w (fun _ w' => lists_are al ((hdr, []) :: R) hf w') /\
  runs (lst_destroy (Lst al hdr)) w (fun _ w' => lists_are al R hf w') /\
  (r = [] -> runs (lst_pop_back cf (Lst al hdr)) w (fun _ w' => lists_are al ((hdr, l) :: R) hf w')) /\
  (l = [] -> runs (lst_pop_front cf (Lst al hdr)) w (fun _ w' => lists_are al ((hdr, r) :: R) hf w')).
Proof.
  intros Ho Hh. split_and!.
  - eapply runs_erase; [done..|]. intros hv' Ho' _ Hh'. by exists hv'.
  - eapply runs_lst_clear; [done|exact Ho|by left|]. intros hv' Ho' Hh'. by exists hv'.
  - eapply runs_lst_destroy; [done|exact Ho|by left|]. intros hv' Ho' Hh'. by exists hv'.
  - intros ->. eapply runs_pop_back; [done..|]. intros hv' Ho' Hh'. by exists hv'.
  - intros ->. eapply runs_pop_front; [done..|]. intros hv' Ho' Hh'. by exists hv'.
Qed.
Print Assumptions C28_one_list_partial.

(** ... nor does any program whose lists all use default constructed
    allocators that compare equal. *)
Theorem C28_equal_allocators_partial V (cf : cfg V) comp k ops w :
  (let! r := list_program cf comp k ops in destroy_lists r.1) w <> Fault FAlloc.
Proof.
  assert (Hr : runs (let! r := list_program cf comp k ops in destroy_lists r.1) w (fun _ _ => True)).
  { rbind. eapply runs_mono; [apply C17_list_history|]. intros r w' (_ & ls & _ & _ & _ & Hd). by eapply runs_mono. }
  destruct Hr as (a & w' & -> & _). done.
Qed.
Print Assumptions C28_equal_allocators_partial.

(** two lists with different allocators: after a swap, each frees the nodes of
    the other *)
Theorem C28_swap_refuted : exists (cf : cfg nat) w,
  (let! o1 := lst_new cf 1 in let! o2 := lst_new cf 2 in
   do! lst_push_back cf o1 (LAVal 5) in
   do! lst_swap cf o1 o2 in
   lst_destroy o2) w = Fault FAlloc.
Proof. exists lcD, (lw0 []). by vm_compute. Qed.
Print Assumptions C28_swap_refuted.

(** a single list whose allocator is not equal to a default constructed one:
    assign frees the old nodes with the wrong allocator *)
Theorem C28_assign_refuted : exists (cf : cfg nat) w,
  (let! o := lst_new cf 1 in
   do! lst_push_back cf o (LAVal 5) in
   lst_assign_n cf o 1 (LAVal 6)) w = Fault FAlloc.
Proof. exists lcD, (lw0 []). by vm_compute. Qed.
Print Assumptions C28_assign_refuted.

Example C28_example :
  let ls := [(1%positive, exA)] in
  lists_own 3 ls (lists_heap 3 ls) /\
  runs (do! lst_erase lcD (Lst 3 1) 3 in do! lst_pop_back lcD (Lst 3 1) in lst_destroy (Lst 3 1)) (World (lists_heap 3 ls) [] None 0 0)
    (fun _ w' => w_heap w' = ∅).
Proof. cbv zeta. split; [apply own_b_sound; by vm_compute|]. compute_run. Qed.

(** ** C29: [inr e]: the exception e is thrown *)

Theorem C29_copy_construct V (cf : cfg V) hdr xs R hv hf w al2 :
  let al := c_dflt cf in
  lists_own al ((hdr, xs) :: R) hv -> heap_is w hv hf ->
  runs (hlst_copy_ctor cf (Lst al2 hdr)) w (fun r w' =>
    match r with
    | inl o => l_alloc o = al /\ exists ys, ys.*2 = xs.*2 /\ lists_are al ((l_hdr o, ys) :: (hdr, xs) :: R) hf w'
    | inr e => node_error cf e /\ lists_are al ((hdr, xs) :: R) hf w'
    end).
Proof.
  intros al Ho Hh. eapply runs_hlst_copy_ctor; [done|exact Ho|..].
  - intros a ys hv' w' Hy Ho' Hh' _. split; [done|]. exists ys. split; [done|]. by exists hv'.
  - intros e hv' w' Hne Ho' Hh' _. split; [done|]. by exists hv'.
Qed.
Print Assumptions C29_copy_construct.

Theorem C29_copy_assign V (cf : cfg V) h1 xs h2 ys R hv hf w al2 :
  let al := c_dflt cf in
  lists_own al ((h1, xs) :: (h2, ys) :: R) hv -> heap_is w hv hf ->
  runs (hlst_copy_assign cf (Lst al h1) (Lst al2 h2)) w (fun r w' =>
    match r with
    | None => exists zs, zs.*2 = ys.*2 /\ lists_are al ((h1, zs) :: (h2, ys) :: R) hf w'
    | Some e => node_error cf e /\ lists_are al ((h1, xs) :: (h2, ys) :: R) hf w'
    end).
Proof.
  intros al Ho Hh. eapply runs_hlst_copy_assign; [done|exact Ho|..].
  - intros zs hv' w' Hy Ho' Hh' _. exists zs. split; [done|]. by exists hv'.
  - intros e hv' w' Hne Ho' Hh' _. split; [done|]. by exists hv'.
Qed.
Print Assumptions C29_copy_assign.

Theorem C29_self_assign V (cf : cfg V) h1 xs R hv hf w :
  let al := c_dflt cf in
  lists_own al ((h1, xs) :: R) hv -> heap_is w hv hf ->
  runs (hlst_copy_assign cf (Lst al h1) (Lst al h1)) w (fun r w' =>
    match r with
    | None => exists zs, zs.*2 = xs.*2 /\ lists_are al ((h1, zs) :: R) hf w'
    | Some e => node_error cf e /\ lists_are al ((h1, xs) :: R) hf w'
    end).
Proof.
  intros al Ho Hh. eapply runs_hlst_copy_assign_self; [done|exact Ho|..].
  - intros zs hv' w' Hy Ho' Hh' _. exists zs. split; [done|]. by exists hv'.
  - intros e hv' w' Hne Ho' Hh' _. split; [done|]. by exists hv'.
Qed.
Print Assumptions C29_self_assign.

Theorem C29_push_back V (cf : cfg V) al hdr xs R hv hf w x v :
  lists_own al ((hdr, xs) :: R) hv -> heap_is w hv hf -> arg_in ((hdr, xs) :: R) hf x v ->
  runs (hlst_push_back cf (Lst al hdr) x) w (fun r w' =>
    match r with
    | None => exists a, lists_are al ((hdr, xs ++ [(a, v)]) :: R) hf w'
    | Some e => node_error cf e /\ w_heap w' = w_heap w
    end).
Proof.
  intros Ho Hh Hx. eapply runs_hlst_push_back; [done|exact Ho|done|..].
  - intros a hv' w' Ho' Hh' _. exists a. by exists hv'.
  - intros e w' Hne Hw' _. done.
Qed.
Print Assumptions C29_push_back.

Example C29_example :
  runs (hlst_copy_ctor lcD oA) (lw1 [EvOk 20; EvOk 1; EvFail 0]) (fun r w' =>
    r = inr EBadAlloc /\ w_heap w' = lists_heap 0 ex_ls) /\
  runs (let! r := hlst_copy_assign lcD oA oB in let! l := lst_walk lcD oA in ret (r, l)) (lw1 []) (fun r _ => r = (None, [7; 8])) /\
  runs (let! r := hlst_copy_assign lcD oA oA in let! l := lst_walk lcD oA in ret (r, l)) (lw1 []) (fun r _ => r = (None, [1; 2; 3; 4])) /\
  runs (let! r := hlst_push_back lcD oA (LARef 2) in let! l := lst_walk lcD oA in ret (r, l)) (lw1 []) (fun r _ => r = (None, [1; 2; 3; 4; 1])).
Proof. split_and!; compute_run. Qed.

(** ** C55 *)

Theorem C55_equality V (cf : cfg V) eqv al h1 xs h2 ys R hv hf w al1 al2 :
  lists_own al ((h1, xs) :: (h2, ys) :: R) hv -> heap_is w hv hf ->
  runs (lst_equal cf eqv (Lst al1 h1) (Lst al2 h2)) w (fun b w' =>
    w' = w /\ (b = true <-> Forall2 (fun x y => eqv x y = true) xs.*2 ys.*2)).
Proof.
  intros Ho Hh. eapply runs_lst_equal; [done|exact Ho|eapply own_perm; [|exact Ho]; apply perm_swap|].
  split; [done|]. generalize xs.*2, ys.*2. clear. intros l. induction l as [|x l IH]; intros [|y r]; simpl.
  - split; [constructor|done].
  - split; [done|]. intros H. inversion H.
  - split; [done|]. intros H. inversion H.
  - rewrite andb_true_iff, IH, Forall2_cons. done.
Qed.
Print Assumptions C55_equality.

(** a list compared with itself *)
Theorem C55_equality_self V (cf : cfg V) eqv al h1 xs R hv hf w al1 :
  lists_own al ((h1, xs) :: R) hv -> heap_is w hv hf ->
  runs (lst_equal cf eqv (Lst al1 h1) (Lst al1 h1)) w (fun b w' =>
    w' = w /\ ((forall x, eqv x x = true) -> b = true)).
Proof.
  intros Ho Hh. eapply runs_lst_equal; [done|exact Ho|exact Ho|].
  split; [done|]. intros Hr. generalize xs.*2. clear -Hr. intros l. induction l as [|x l IH]; [done|]. simpl. by rewrite Hr, IH.
Qed.
Print Assumptions C55_equality_self.

Example C55_example :
  runs (lst_equal lcD Nat.eqb oA oB) (lw1 []) (fun b _ => b = false) /\
  runs (do! lst_copy lcD oB oA in lst_equal lcD Nat.eqb oA oB) (lw1 []) (fun b _ => b = true) /\
  runs (do! lst_copy lcD oB oA in do! lst_pop_back lcD oB in do! lst_push_back lcD oB (LAVal 0) in lst_equal lcD Nat.eqb oA oB) (lw1 []) (fun b _ => b = false).
Proof. split_and!; compute_run. Qed.

(** ** C60 *)

Lemma own_cut {V} (xs : list (addr * V)) i j : i <= j -> xs = take i xs ++ (take (j - i) (drop i xs)) ++ drop j xs.
Proof.
  intros Hij. rewrite <-(take_drop i xs) at 1. f_equal. rewrite <-(take_drop (j - i) (drop i xs)) at 1. f_equal.
  rewrite drop_drop. f_equal. lia.
Qed.

(** erase(it) removes the designated element and returns the position of the
    element after it *)
Theorem C60_erase V (cf : cfg V) al hdr xs R hv hf w i :
  lists_own al ((hdr, xs) :: R) hv -> heap_is w hv hf -> i < length xs ->
  runs (lst_erase cf (Lst al hdr) (lpos hdr xs i)) w (fun it w' =>
    it = lpos hdr xs (S i) /\ it = lpos hdr (take i xs ++ drop (S i) xs) i /\
    lists_are al ((hdr, take i xs ++ drop (S i) xs) :: R) hf w' /\ no_calls w w').
Proof.
  intros Ho Hh Hi. destruct (lookup_lt_is_Some_2 xs i Hi) as [[a v] Hx].
  assert (Hs : xs = take i xs ++ (a, v) :: drop (S i) xs) by (by rewrite take_drop_middle).
  replace (lpos hdr xs i) with a by (unfold lpos; by rewrite list_lookup_fmap, Hx).
  eapply (runs_erase cf w al hdr (take i xs) a v (drop (S i) xs) R); [done|by rewrite <-Hs|].
  intros hv' Ho' _ Hh'. split_and!; [by rewrite lpos_hdx| |by exists hv'|done].
  symmetry. replace i with (length (take i xs)) at 3 by (rewrite take_length; lia). apply lpos_app.
Qed.
Print Assumptions C60_erase.

(** erase(first, last) removes exactly the range and returns last *)
Theorem C60_erase_range V (cf : cfg V) al hdr xs R hv hf w i j :
  lists_own al ((hdr, xs) :: R) hv -> heap_is w hv hf -> i <= j ->
  runs (lst_erase_range cf (Lst al hdr) (lpos hdr xs i) (lpos hdr xs j)) w (fun it w' =>
    it = lpos hdr xs j /\ lists_are al ((hdr, take i xs ++ drop j xs) :: R) hf w' /\ no_calls w w').
Proof.
  intros Ho Hh Hij. rewrite !lpos_hdx.
  replace (drop i xs) with (take (j - i) (drop i xs) ++ drop j xs).
  2: { rewrite <-(take_drop (j - i) (drop i xs)) at 2. f_equal. rewrite drop_drop. f_equal. lia. }
  eapply (runs_erase_range cf w al hdr (take i xs) _ (drop j xs) R); [done|by rewrite <-own_cut|].
  intros hv' Ho' Hh'. split_and!; [done|by exists hv'|done].
Qed.
Print Assumptions C60_erase_range.

Theorem C60_pop V (cf : cfg V) al hdr xs R hv hf w :
  lists_own al ((hdr, xs) :: R) hv -> heap_is w hv hf -> xs <> [] ->
  runs (lst_pop_front cf (Lst al hdr)) w (fun _ w' => lists_are al ((hdr, drop 1 xs) :: R) hf w' /\ no_calls w w') /\
  runs (lst_pop_back cf (Lst al hdr)) w (fun _ w' => lists_are al ((hdr, take (length xs - 1) xs) :: R) hf w' /\ no_calls w w').
Proof.
  intros Ho Hh Hne. split.
  - destruct xs as [|[a v] xs]; [done|]. eapply runs_pop_front; [done..|]. apply relink_post.
  - destruct xs as [|[a v] xs _] using rev_ind; [done|]. eapply runs_pop_back; [done..|].
    rewrite app_length. simpl. replace (length xs + 1 - 1) with (length xs) by lia. rewrite take_app. apply relink_post.
Qed.
Print Assumptions C60_pop.

Example C60_example :
  runs (let! it := lst_erase lcD oA (lpos 1 exA 1) in let! v := it_deref lcD it in let! l := lst_walk lcD oA in ret (v, l)) (lw1 []) (fun r w' =>
    r = (3, [1; 3; 4])) /\
  runs (let! it := lst_erase lcD oA (lpos 1 exA 3) in let! l := lst_walk lcD oA in ret (it, l)) (lw1 []) (fun r w' =>
    r = (1%positive, [1; 2; 3])) /\
  runs (let! it := lst_erase_range lcD oA (lpos 1 exA 1) (lpos 1 exA 3) in let! v := it_deref lcD it in let! l := lst_walk lcD oA in ret (v, l)) (lw1 []) (fun r w' =>
    r = (4, [1; 4])) /\
  runs (do! lst_pop_front lcD oA in do! lst_pop_back lcD oA in lst_walk lcD oA) (lw1 []) (fun r w' => r = [2; 3]).
Proof. split_and!; compute_run. Qed.

(** ** C61 *)

(** move assignment hands over the nodes themselves: no allocation, no element
    operation, and it cannot fail *)
Theorem C61_move_assign V (cf : cfg V) al h1 xs h2 ys R hv hf w al2 :
  lists_own al ((h1, xs) :: (h2, ys) :: R) hv -> heap_is w hv hf ->
  runs (lst_move_assign cf (Lst al h1) (Lst al2 h2)) w (fun _ w' =>
    lists_are al ((h1, ys) :: (h2, []) :: R) hf w' /\ no_calls w w').
Proof. intros Ho Hh. eapply runs_lst_move_assign; [done|exact Ho|]. apply relink_post. Qed.
Print Assumptions C61_move_assign.

Theorem C61_self_move V (cf : cfg V) al h1 xs R hv hf w :
  lists_own al ((h1, xs) :: R) hv -> heap_is w hv hf ->
  runs (lst_move_assign cf (Lst al h1) (Lst al h1)) w (fun _ w' =>
    lists_are al ((h1, []) :: R) hf w' /\ no_calls w w').
Proof. intros Ho Hh. eapply runs_lst_move_assign_self; [done|exact Ho|]. apply relink_post. Qed.
Print Assumptions C61_self_move.

Example C61_example :
  runs (do! lst_move_assign lcD oA oB in let! l := lst_walk lcD oA in let! r := lst_walk lcD oB in ret (l, r)) (lw1 []) (fun r w' =>
    r = ([7; 8], []) /\ w_heap w' = lists_heap 0 [(1%positive, exB); (10%positive, [])]) /\
  runs (do! lst_move_assign lcD oA oA in lst_walk lcD oA) (lw1 []) (fun r w' => r = [] /\ w_heap w' = lists_heap 0 [(1%positive, []); (10%positive, exB)]).
Proof. split_and!; compute_run. Qed.

(** ** C74: builds with assertions stop misuse *)

(** After any history: front() and back() of a list without elements and
    merging a list with itself end in a failing assertion. *)
Theorem C74_list_checked V (cf : cfg V) comp comp' k ops w :
  c_dbg cf = true ->
  runs (list_program cf comp k ops) w (fun r w' =>
    forall i o, r.1 !! i = Some o ->
      (lst_walk cf o w' = Done [] w' -> lst_front cf o w' = Fault FAssert /\ lst_back cf o w' = Fault FAssert) /\
      lst_merge cf comp' o o w' = Fault FAssert).
Proof.
  intros Hd. eapply runs_mono; [apply C17_list_history|]. intros r w' (Hl & ls & _ & Hls & Hsh & _) i o Hi.
  destruct (lookup_lt_is_Some_2 ls i) as [l Hli]; [apply lookup_lt_Some in Hi; lia|].
  destruct (Hsh _ _ _ Hi Hli) as (_ & He & Hw & _). split.
  - intros Hw0. rewrite Hw0 in Hw. injection Hw as <-.
    unfold lst_front, lst_back, bind, assert_. rewrite He, Hd. done.
  - unfold lst_merge, bind, assert_. rewrite Hd, bool_decide_true by done. done.
Qed.
Print Assumptions C74_list_checked.

Example C74_list_example :
  let ops := [LoPushBack 0 (HVal 1); LoPopBack 0] in
  match list_program lcD Nat.leb 1 ops (lw0 []) with
  | Done ([o], _) w' =>
      match lst_walk lcD o w' with Done [] _ => True | _ => False end /\
      match lst_back lcD o w' with Fault FAssert => True | _ => False end
  | _ => False
  end.
Proof. by vm_compute. Qed.
