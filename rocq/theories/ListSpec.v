(** * What lists mean to their user *)
From Verif Require Export ListModel BaseLemmas Order.

Section spec.
  Context {V : Type}.
  Notation H := (gmap addr (lcell V)).

  (** The fields of a cell. *)
  Definition nx (h : H) (a : addr) : option addr := h !! a ≫= ln_next.
  Definition pv (h : H) (a : addr) : option addr := h !! a ≫= ln_prev.
  Definition bd (h : H) (a : addr) : option (lbody V) := ln_body <$> h !! a.

  (** [b] follows [a]. *)
  Definition link (h : H) (a b : addr) : Prop := nx h a = Some b /\ pv h b = Some a.

  (** From [a] through the cells [l] to [b]. *)
  Fixpoint chain (h : H) (a : addr) (l : list addr) (b : addr) : Prop :=
    match l with
    | [] => link h a b
    | x :: l => link h a x /\ chain h x l b
    end.

  (** A list with header [hdr] whose elements are, in order, the values [v]
      in the nodes [a], for the pairs [(a, v)] of [xs]; all nodes were obtained
      from allocator [al]. *)
  Definition list_shape (al : alloc_id) (h : H) (hdr : addr) (xs : list (addr * V)) : Prop :=
    chain h hdr xs.*1 hdr /\
    bd h hdr = Some LHead /\
    (forall a v, (a, v) ∈ xs -> bd h a = Some (LNode al (Some v))).

  (** All cells of a collection of lists, given by header and contents. *)
  Definition list_addrs (ls : list (addr * list (addr * V))) : list addr :=
    concat (map (fun l => l.1 :: l.2.*1) ls).

  (** The heap fragment [hv] consists of exactly these lists. *)
  Definition lists_own (al : alloc_id) (ls : list (addr * list (addr * V))) (hv : H) : Prop :=
    NoDup (list_addrs ls) /\
    (forall a, is_Some (hv !! a) <-> a ∈ list_addrs ls) /\
    (forall hdr xs, (hdr, xs) ∈ ls -> list_shape al hv hdr xs).

  (** The iterator to element number [i] (end() beyond the last one). *)
  Definition lpos (hdr : addr) (xs : list (addr * V)) (i : nat) : addr :=
    default hdr (xs.*1 !! i).

  (** The value of an argument: a temporary, or a live element somewhere. *)
  Definition larg_is (h : H) (x : larg V) (v : V) : Prop :=
    match x with
    | LAVal y => y = v
    | LARef a => exists al, bd h a = Some (LNode al (Some v))
    end.

  (** The same, in terms of a collection of lists [ls] and the rest of the
      heap: a temporary, an element of one of the lists, or an element
      elsewhere. *)
  Definition arg_in (ls : list (addr * list (addr * V))) (hf : H) (x : larg V) (v : V) : Prop :=
    match x with
    | LAVal y => y = v
    | LARef a => (a, v) ∈ concat ls.*2 \/ exists al, bd hf a = Some (LNode al (Some v))
    end.

  (** The errors insertion can report: out of memory, or what the element's
      copy reports. *)
  Definition node_error (cf : cfg V) (e : error) : Prop :=
    e = EBadAlloc \/ (c_kind cf <> Nothrow /\ exists code, e = EElem code).

  (** The heap consists of exactly these lists and of [hf]. *)
  Definition lists_are (al : alloc_id) (ls : list (addr * list (addr * V))) (hf : H) (w : world (lcell V)) : Prop :=
    exists hv, lists_own al ls hv /\ heap_is w hv hf.

  (** Neither the allocator nor any element operation was called, and no error
      was reported. *)
  Definition no_calls (w w' : world (lcell V)) : Prop :=
    w_allocs w' = w_allocs w /\ w_ctors w' = w_ctors w /\ w_orc w' = w_orc w /\ w_err w' = w_err w.
End spec.

(** ** Orders *)
Section order.
  Context {V : Type} (comp : V -> V -> bool).

  (** The nodes whose value ranks like [v], in order. *)
  Definition rank_of (v : V) (xs : list (addr * V)) : list (addr * V) :=
    filter (fun p => same_rank comp v p.2 = true) xs.
End order.
