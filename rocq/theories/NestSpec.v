(** * What vectors of vectors mean

    A vector whose elements are vectors stands for a list of lists, and so on. *)
From Verif Require Export NestModel VecSpec.

(** A nested value: a plain element, or the contents of a vector. *)
Inductive deep (T : Type) :=
| DElem (x : T)
| DList (l : list (deep T)).
Arguments DElem {T}.
Arguments DList {T}.

(** [Own v x h]: the element object [v] stands for [x] and owns exactly the heap
    fragment [h].  A list of element objects owns the fragments of its
    members, which do not overlap. *)
Inductive all_own {V X C : Type} (Own : V -> X -> gmap addr C -> Prop) :
    list V -> list X -> gmap addr C -> Prop :=
| all_own_nil : all_own Own [] [] ∅
| all_own_cons v x h vs xs hs :
    Own v x h -> all_own Own vs xs hs -> h ##ₘ hs -> all_own Own (v :: vs) (x :: xs) (h ∪ hs).

(** A vector object with contents [xs] and capacity [cap] owns its block
    ([vec_owns], VecSpec.v) and what its elements own. *)
Definition nvec_owns {V X : Type} (cf : cfg V) (Own : V -> X -> gmap addr (vblock V) -> Prop)
    (o : vec_obj) (xs : list X) (cap : nat) (h : gmap addr (vblock V)) : Prop :=
  exists vs hb hs, vec_owns cf o vs cap hb /\ all_own Own vs xs hs /\ hb ##ₘ hs /\ h = hb ∪ hs.

(** An object of depth [d]: a plain element (0), or a vector of objects of depth
    [d - 1]. *)
Fixpoint obj_owns {T} (lc : nat -> cfg (val T)) (d : nat) (v : val T) (x : deep T)
    (h : gmap addr (vblock (val T))) : Prop :=
  match d with
  | 0 => exists t, v = VElem t /\ x = DElem t /\ h = ∅
  | S d => exists o xs cap, v = VVec o /\ x = DList xs /\ nvec_owns (lc d) (obj_owns lc d) o xs cap h
  end.

(** The argument of a call: a reference to, or a temporary handle of, an object
    that stands for [x] and lives in [hf], outside the vector. *)
Definition narg {V X : Type} (Own : V -> X -> gmap addr (vblock V) -> Prop)
    (hf : gmap addr (vblock V)) (a : arg V) (x : X) : Prop :=
  exists v hx, arg_outside hf a v /\ Own v x hx /\ hx ⊆ hf.

(** A vector damaged by a failed insertion, as [vec_damaged] (VecSpec.v): slot
    [j] is empty and the elements from there on sit one slot too far to the
    right.  Every element still exists. *)
Definition nvec_broken {V X : Type} (Own : V -> X -> gmap addr (vblock V) -> Prop)
    (v : vec_obj) (xs : list X) (i : nat) (hf : gmap addr (vblock V)) (w : world (vblock V)) : Prop :=
  exists b cap j live vs hs,
    m_start v = Ptr b 0 /\ m_finish v = Ptr b (length xs) /\ m_end_of_storage v = Ptr b cap /\
    i <= j < length xs /\ length xs < cap /\
    (forall k, live !! k = if decide (k < j) then vs !! k else if decide (k = j) then None else vs !! (k - 1)) /\
    all_own Own vs xs hs /\ hs !! b = None /\
    heap_is w (<[ b := Block (m_allocator v) cap cap live ]> hs) hf.
