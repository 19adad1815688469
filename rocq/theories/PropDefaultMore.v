(** * list, shared_ptr: elements constructed without arguments

    emplace(pos) and make_shared<T>() construct exactly one element, without
    arguments, so the only difference to the functions with an argument is the
    overload of class_operations::construct ([default_cfg], VecDefault.v). *)
From Verif Require Import VecDefault ListExtra SpHist PropList PropSp.

(** list.hpp:951-968 with no arguments *)
Definition lst_emplace_default {V} (cf : cfg V) (o : lst_obj) (pos : addr) : M (lcell V) addr :=
  lst_emplace (default_cfg cf) o pos (LAVal (c_default cf)).
(** shared_ptr.hpp:501-540 with no arguments; [ks]: the handles the
    default constructor of the object sets to null *)
Definition make_shared_default {V} (cf : cfg V) (ks : list hkind) : M (scell V) handle :=
  make_shared (default_cfg cf) (c_default cf) ks.

Lemma default_kind V (cf : cfg V) : c_kind (default_cfg cf) <> Nothrow <-> c_kind cf <> Nothrow.
Proof. unfold default_cfg. simpl. by destruct (c_kind cf). Qed.

Theorem C18_emplace_default V (cf : cfg V) al hdr xs R hv hf w i :
  lists_own al ((hdr, xs) :: R) hv -> heap_is w hv hf -> w_err w = None ->
  runs (lst_emplace_default cf (Lst al hdr) (lpos hdr xs i)) w (fun it w' =>
    match w_err w' with
    | None => w_heap w !! it = None /\ lists_are al ((hdr, take i xs ++ (it, c_default cf) :: drop i xs) :: R) hf w'
    | Some e => node_error cf e /\ it = hdr /\ w_heap w' = w_heap w
    end).
Proof.
  intros Ho Hh He. eapply runs_mono; [eapply (C18_insert_strong V (default_cfg cf) al hdr xs R hv hf w i _ (c_default cf)); by try done|].
  cbv beta. intros it w'. destruct (w_err w') as [e|]; [|done]. intros (Hne & Hr). split; [|done].
  destruct Hne as [?|[Hk ?]]; [by left|right]. split; [by apply default_kind|done].
Qed.
Print Assumptions C18_emplace_default.

Theorem C46_make_shared_default V (cf : cfg V) w ks :
  sp_state (w_heap w) -> w_err w = None ->
  runs (make_shared_default cf ks) w (fun x w' =>
    match w_err w' with
    | None => exists c, x = Handle KShared (Some c) (Some c) /\ w_heap w !! c = None /\
        w_heap w' = <[c := SBlock (CB (c_dflt cf) 1 0 (Some (c_default cf, null <$> ks)))]> (w_heap w)
    | Some e => x = null KShared /\ w_heap w' = w_heap w /\ (e = EBadAlloc \/ c_kind cf <> Nothrow /\ exists code, e = EElem code)
    end).
Proof.
  intros Hs He. eapply runs_mono; [by eapply (C46_make_shared V (default_cfg cf))|].
  cbv beta. intros x w'. destruct (w_err w') as [e|]; [|done]. by rewrite default_kind.
Qed.
Print Assumptions C46_make_shared_default.

Definition xD2 : cfg nat := Cfg true 8 (2^62) 0 TwoPhase 9.
(** allocation, then one constructor; the third event is not used *)
Example C18_default_example :
  runs (let! o := lst_new xD2 0 in let! _ := lst_emplace_default xD2 o (l_hdr o) in lst_front xD2 o) (World ∅ [EvOk 2; EvOk 1; EvFail 3] None 0 0)
    (fun v w' => v = 9 /\ w_err w' = None /\ length (w_orc w') = 1) /\
  runs (make_shared_default xD2 []) (World ∅ [EvOk 1; EvOk 2; EvFail 3] None 0 0)
    (fun x w' => x = Handle KShared (Some 1%positive) (Some 1%positive) /\ w_err w' = None /\ length (w_orc w') = 1) /\
  runs (make_shared_default xD2 []) (World ∅ [EvOk 1; EvFail 3] None 0 0) (fun x w' => x = null KShared /\ w_err w' = Some (EElem 3)).
Proof. split; [compute_run|]. split; compute_run. Qed.
