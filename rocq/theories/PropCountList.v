(** * Property C75: how many comparisons merge() and sort() of a list make

    Stated over the model (ListModel.v) with [settled] of CountSpec.v.  Nothing
    is asked of the comparator. *)
From Verif Require Import Count ListExtra ListCount.
From Verif Require Import PropList.

Theorem C75_merge V (cf : cfg V) comp al h1 xs h2 ys R hv hf w al1 al2 :
  lists_own al ((h1, xs) :: (h2, ys) :: R) hv -> heap_is w hv hf ->
  settled (fun c => lst_merge cf c (Lst al1 h1) (Lst al2 h2)) comp w (length xs + length ys - 1).
Proof.
  intros Ho Hh. apply cruns_settled. eapply cruns_lst_merge; [done|exact Ho|]. intros n Hn hv' _ _. exact Hn.
Qed.
Print Assumptions C75_merge.

Theorem C75_sort V (cf : cfg V) comp al hdr xs R hv hf w al0 :
  lists_own al ((hdr, xs) :: R) hv -> heap_is w hv hf -> (N.of_nat (length xs) < 2 ^ 64)%N ->
  settled (fun c => lst_sort cf c (Lst al0 hdr)) comp w (length xs * (Nat.log2 (length xs) + 1)).
Proof.
  intros Ho Hh Hl. apply cruns_settled. eapply cruns_lst_sort; [done|exact Ho|done|]. intros n ys Hn _ _ hv' _ _. exact Hn.
Qed.
Print Assumptions C75_sort.

(** Two lists of two interleaved values: each of the three comparisons that
    merge() makes matters, and no two questions settle the outcome. *)
Definition lflip_at (a b : nat) (x y : nat) : bool :=
  if decide (x = a /\ y = b) then negb (x <? y) else x <? y.
Lemma lflip_needed (qs : list (nat * nat)) a b :
  (a, b) ∉ qs -> Forall (fun q => lflip_at a b q.1 q.2 = (q.1 <? q.2)) qs.
Proof.
  intros Hq. apply Forall_forall. intros [x y] Hin. simpl. unfold lflip_at. destruct (decide _) as [[-> ->]|]; done.
Qed.
Example C75_list_example :
  let ls := [(1%positive, [nd 2 10; nd 3 30]); (4%positive, [nd 5 20; nd 6 40])] in
  let w := World (lists_heap 0 ls) [] None 0 0 in
  lists_own 0 ls (lists_heap 0 ls) /\ heap_is w (lists_heap 0 ls) ∅ /\
  settled (fun c => lst_merge lcD c (Lst 0 1) (Lst 0 4)) Nat.ltb w 3 /\
  ~ settled (fun c => lst_merge lcD c (Lst 0 1) (Lst 0 4)) Nat.ltb w 2.
Proof.
  intros ls w. assert (lists_own 0 ls (lists_heap 0 ls)) as Ho by (apply own_b_sound; by vm_compute).
  assert (heap_is w (lists_heap 0 ls) ∅) as Hh by apply (heap_all w).
  split; [done|]. split; [done|]. split; [by eapply (C75_merge nat lcD Nat.ltb 0 1 [nd 2 10; nd 3 30] 4 [nd 5 20; nd 6 40] [])|].
  intros (qs & Hl & H). cbv beta in H.
  assert (forall a b, lst_merge lcD (lflip_at a b) (Lst 0 1) (Lst 0 4) w <> lst_merge lcD Nat.ltb (Lst 0 1) (Lst 0 4) w -> (a, b) ∈ qs) as Hin.
  { intros a b Hne. destruct (decide ((a, b) ∈ qs)) as [|Hq]; [done|]. destruct Hne. apply H. by apply lflip_needed. }
  assert ((20, 10) ∈ qs /\ (20, 30) ∈ qs /\ (40, 30) ∈ qs) as (H1 & H2 & H3).
  { split_and!; apply Hin; intros Heq.
    all: assert (forall m, m = lst_merge lcD Nat.ltb (Lst 0 1) (Lst 0 4) w ->
      match m with Done _ w' => match lst_walk lcD (Lst 0 1) w' with Done l _ => l | _ => [] end | _ => [] end = [10; 20; 30; 40]) as Hr
      by (intros m ->; by vm_compute).
    all: apply Hr in Heq; vm_compute in Heq; done. }
  assert (length [(20, 10); (20, 30); (40, 30)] <= length qs) as Hlen; [|simpl in Hlen; lia].
  apply submseteq_length. apply NoDup_submseteq.
  - apply NoDup_cons. split; [set_solver|]. apply NoDup_cons. split; [set_solver|]. apply NoDup_singleton.
  - set_solver.
Qed.
