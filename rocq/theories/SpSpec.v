(** * What shared_ptr and weak_ptr mean to their user *)
From Verif Require Export SpModel BaseLemmas.

Section spec.
  Context {V : Type}.
  Notation H := (gmap addr (scell V)).

  (** The handles stored in a cell: a variable's, or the members of the object
      alive in a control block. *)
  Definition cell_handles (c : scell V) : list handle :=
    match c with
    | SVar x => [x]
    | SBlock b => match cb_val b with Some (_, hs) => hs | None => [] end
    end.
  (** All handles that exist. *)
  Definition handles (h : H) : list handle := concat (cell_handles <$> (map_to_list h).*2).

  Definition refers (k : hkind) (c : addr) (x : handle) : Prop := h_kind x = k /\ h_rc x = Some c.
  #[global] Instance refers_dec k c x : Decision (refers k c x).
  Proof. unfold refers. apply _. Defined.

  (** How many of the handles [l] are shared (weak) pointers to [c]. *)
  Definition refs (k : hkind) (c : addr) (l : list handle) : nat := length (filter (refers k c) l).
  (** Owners of the object in [c]: the shared_ptrs that exist and point to it. *)
  Definition owners (h : H) (c : addr) : nat := refs KShared c (handles h).
  Definition watchers (h : H) (c : addr) : nat := refs KWeak c (handles h).

  (** The object in control block [c] is alive. *)
  Definition alive (h : H) (c : addr) : Prop := exists b, h !! c = Some (SBlock b) /\ is_Some (cb_val b).

  (** The state a user of shared_ptr and weak_ptr relies on. *)
  Record sp_state (h : H) : Prop := SpState {
    (* the counters count *)
    sps_use c b : h !! c = Some (SBlock b) -> cb_use b = Z.of_nat (owners h c);
    sps_weak c b : h !! c = Some (SBlock b) -> cb_weak b = Z.of_nat (watchers h c);
    (* an object is alive exactly as long as it has an owner *)
    sps_alive c b : h !! c = Some (SBlock b) -> is_Some (cb_val b) <-> 0 < owners h c;
    (* a control block exists exactly as long as some handle refers to it *)
    sps_block c : (exists b, h !! c = Some (SBlock b)) <-> 0 < owners h c + watchers h c;
    (* get() designates the object owned *)
    sps_ptr x : x ∈ handles h -> h_ptr x = h_rc x
  }.

  (** [x] is stored at location [l]. *)
  Definition holds (h : H) (l : loc) (x : handle) : Prop :=
    match h !! l.1 with
    | Some (SVar y) => l.2 = 0 /\ y = x
    | Some (SBlock b) => exists v hs, cb_val b = Some (v, hs) /\ hs !! l.2 = Some x
    | None => False
    end.

  (** The object in [c] has a member that refers to [d]. *)
  Definition member (h : H) (k : hkind) (c d : addr) : Prop :=
    exists b v hs x, h !! c = Some (SBlock b) /\ cb_val b = Some (v, hs) /\ x ∈ hs /\ refers k d x.
  Definition edge (h : H) (c d : addr) : Prop := exists k, member h k c d.

  (** No weak member of an object leads back to that object (directly, or
      through members of the object it refers to, and so on). *)
  Definition no_weak_cycle (h : H) : Prop := forall c d, member h KWeak c d -> ~ rtc (edge h) d c.
  (** No object owns itself through shared_ptr members. *)
  Definition no_owner_cycle (h : H) : Prop := forall c, ~ tc (member h KShared) c c.

  (** Reachable from a variable through shared_ptrs. *)
  Inductive reachable (h : H) : addr -> Prop :=
  | reachable_var a x c : h !! a = Some (SVar x) -> refers KShared c x -> reachable h c
  | reachable_member d c : reachable h d -> member h KShared d c -> reachable h c.
  (** Reachable from a variable through shared_ptrs other than the one at [l]. *)
  Inductive reachable_without (h : H) (l : loc) : addr -> Prop :=
  | rw_var a x c : (a, 0) <> l -> h !! a = Some (SVar x) -> refers KShared c x -> reachable_without h l c
  | rw_member d j x c : reachable_without h l d -> (exists b, h !! d = Some (SBlock b)) -> (d, j) <> l ->
      holds h (d, j) x -> refers KShared c x -> reachable_without h l c.
  (** A weak_ptr to [d] is held by a variable, or by an object that stays
      reachable without the handle at [l]. *)
  Definition watched_without (h : H) (l : loc) (d : addr) : Prop :=
    exists l' x, l' <> l /\ holds h l' x /\ refers KWeak d x /\
      ((exists b, h !! l'.1 = Some (SBlock b)) -> reachable_without h l l'.1).
  (** Without the handle at [l] the object in [c] would not be reachable any more. *)
  Definition doomed (h : H) (l : loc) (c : addr) : Prop := ~ reachable_without h l c.
  (** Among the objects that lose their last path from a variable with the
      handle at [l], a weak member leads back to its own object only if the
      object it refers to has another weak_ptr, one that stays. *)
  Definition release_safe (h : H) (l : loc) : Prop :=
    forall c d, doomed h l c -> member h KWeak c d -> rtc (fun a b => doomed h l a /\ edge h a b) d c -> watched_without h l d.

  (** [l] is a variable, or a member of an object reachable from one, and holds [x]. *)
  Definition stored (h : H) (l : loc) (x : handle) : Prop :=
    holds h l x /\ ((exists b, h !! l.1 = Some (SBlock b)) -> reachable h l.1).

  (** Apart from the handles at [ls], the variables keep their handles, and so
      do the objects that are still alive. *)
  Definition others_keep (h h' : H) (ls : list loc) : Prop :=
    (forall l x, l ∉ ls -> holds h' l x -> holds h l x) /\
    (forall a x, (a, 0) ∉ ls -> h !! a = Some (SVar x) -> h' !! a = Some (SVar x)).

  (** From [h] to [h']: the variables are the same, no control block appeared, no
      dead object came back to life, and objects still alive have the value
      they had. *)
  Definition object_kept (o o' : option (V * list handle)) : Prop :=
    match o', o with
    | None, _ => True
    | Some (v', hs'), Some (v, hs) => v' = v /\ h_kind <$> hs' = h_kind <$> hs
    | Some _, None => False
    end.
  Definition is_var (h : H) (a : addr) : Prop := exists x, h !! a = Some (SVar x).
  Definition objects_kept (h h' : H) : Prop := forall c b', h' !! c = Some (SBlock b') ->
    exists b, h !! c = Some (SBlock b) /\ cb_alloc b' = cb_alloc b /\ object_kept (cb_val b) (cb_val b').
  Definition evolves (h h' : H) : Prop := (forall a, is_var h a <-> is_var h' a) /\ objects_kept h h'.

  (** No allocation, no construction, no error; the memory is [h']. *)
  Definition only_heap (w : world (scell V)) (h' : H) (w' : world (scell V)) : Prop := w' = set_heap h' w.
End spec.
