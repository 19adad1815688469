(** * Functions that take a range of any iterators

    The members that take [InputIterator first, last] are templates.  VecModel.v,
    ListModel.v and RbModel.v have them for given values and for iterators of
    their own container.  Here they are written once for all iterators.  The
    range lies in a second memory with cells of its own type; the function cannot
    change it except through the iterators. *)
From Verif Require Export ListModel RbModel AlgoModel.

(** Programs with two memories: the world of the container that is changed, and
    the memory of the range. *)
Section two.
  Context {C1 C2 : Type}.
  Inductive out2 (A : Type) := Done2 (a : A) (w : world C1) (h : gmap addr C2) | Fault2 (f : fault).
  Definition M2 (A : Type) := world C1 -> gmap addr C2 -> out2 A.
  Definition ret2 {A} (a : A) : M2 A := fun w h => Done2 A a w h.
  Definition bind2 {A B} (m : M2 A) (k : A -> M2 B) : M2 B := fun w h =>
    match m w h with Done2 _ a w h => k a w h | Fault2 _ f => Fault2 B f end.
  Definition fail2 {A} (f : fault) : M2 A := fun _ _ => Fault2 A f.
  (** a call that works on the container *)
  Definition here {A} (m : M C1 A) : M2 A := fun w h =>
    match m w with Done a w => Done2 A a w h | Fault f => Fault2 A f end.
  (** a call of an iterator; iterators never allocate and never fail *)
  Definition there {A} (m : M C2 A) : M2 A := fun w h =>
    match m (World h [] None 0 0) with Done a w2 => Done2 A a w (w_heap w2) | Fault f => Fault2 A f end.
End two.
Arguments Done2 {C1 C2 A}.
Arguments Fault2 {C1 C2 A}.
Arguments M2 : clear implicits.
Notation "'let2' x ':=' m 'in' k" := (bind2 m (fun x => k)) (at level 100, x name, k at level 200, right associativity).
Notation "'do2' m 'in' k" := (bind2 m (fun _ => k)) (at level 100, k at level 200, right associativity).

(** ** Iterators *)

(** [i_ne]: a != b; [i_get]: *a; [i_inc]: ++a; [i_dec]: --a; [i_dist]: b - a, for
    random access iterators *)
Record iterator (C V I : Type) := Iter {
  i_ne : I -> I -> M C bool;
  i_get : I -> M C V;
  i_inc : I -> M C I;
  i_dec : I -> M C I;
  i_dist : option (I -> I -> M C nat)
}.
Arguments i_ne {C V I}.
Arguments i_get {C V I}.
Arguments i_inc {C V I}.
Arguments i_dec {C V I}.
Arguments i_dist {C V I}.

(** list.hpp:216-309 *)
Definition list_iter {V} (cf : cfg V) : iterator (lcell V) V addr :=
  Iter _ _ _ (fun a b => let! q := it_eq cf a b in ret (negb q)) (it_deref cf) (it_inc cf) (it_dec cf) None.
(** rbt.hpp:166-235, 256-325 *)
Definition tree_iter {V} : iterator (tcell V) V addr :=
  Iter _ _ _ (fun a b => ret (bool_decide (a <> b))) tread rb_increment rb_decrement None.
(** Pointers, the iterators of vector (vector.hpp:32-33) *)
Definition ptr_iter {V} : iterator (vblock V) V ptr :=
  Iter _ _ _ (fun a b => ret (bool_decide (a <> b))) read (fun p => padd p 1) pdec (Some (fun a b => pdiff b a)).
(** std::reverse_iterator (rbegin(), rend()) *)
Definition rev_iter {C V I} (it : iterator C V I) : iterator C V I :=
  Iter _ _ _ (i_ne it) (fun a => let! p := i_dec it a in i_get it p) (i_dec it) (i_inc it)
    (match i_dist it with Some d => Some (fun a b => d b a) | None => None end).

(** ** The functions *)

Section functions.
  Context {C I V : Type} (cf : cfg V) (it : iterator C V I).

  (** vector.hpp:674-694 *)
  Fixpoint vec_push_loop (fuel : nat) (v : vec_obj) (first last : I) : M2 (vblock V) C vec_obj :=
    match fuel with
    | 0 => fail2 FFuel
    | S fuel =>
        let2 q := there (i_ne it first last) in
        if (q : bool) then
          let2 x := there (i_get it first) in
          let2 v := here (vec_push_back cf v (AVal x)) in
          let2 e := here has_err in
          if (e : bool) then ret2 v else
          let2 first := there (i_inc it first) in
          vec_push_loop fuel v first last
        else ret2 v
    end.
  (** vector.hpp:335-343, 654-672 *)
  Definition vec_assign_it (fuel : nat) (v : vec_obj) (first last : I) : M2 (vblock V) C vec_obj :=
    let '(tmp, v) := vec_swap (vec_new (c_dflt cf)) v in
    do2 here (assert_ cf (vec_empty v)) in
    let2 v := match i_dist it with
              | None => vec_push_loop fuel v first last
              | Some d =>
                  let2 required := there (d first last) in
                  let2 v := here (grow cf v required) in
                  let2 e := here has_err in
                  if (e : bool) then ret2 v else
                  do2 here (assert_ cf (vec_empty v)) in
                  vec_push_loop fuel v first last
              end in
    do2 here (vec_destroy tmp) in
    ret2 v.

  (** list.hpp:735-751 *)
  Fixpoint lst_push_loop (fuel : nat) (o : lst_obj) (first last : I) : M2 (lcell V) C unit :=
    match fuel with
    | 0 => fail2 FFuel
    | S fuel =>
        let2 q := there (i_ne it first last) in
        if (q : bool) then
          let2 x := there (i_get it first) in
          do2 here (lst_push_back cf o (LAVal x)) in
          let2 e := here has_err in
          if (e : bool) then ret2 tt else
          let2 first := there (i_inc it first) in
          lst_push_loop fuel o first last
        else ret2 tt
    end.
  Definition lst_assign_it (fuel : nat) (o : lst_obj) (first last : I) : M2 (lcell V) C unit :=
    let2 tmp := here (lst_new cf (c_dflt cf)) in
    do2 here (lst_swap cf tmp o) in
    do2 lst_push_loop fuel o first last in
    here (lst_destroy tmp).
  (** list.hpp:934-949 *)
  Fixpoint lst_insert_it (fuel : nat) (o : lst_obj) (pos : addr) (first last : I) : M2 (lcell V) C unit :=
    match fuel with
    | 0 => fail2 FFuel
    | S fuel =>
        let2 q := there (i_ne it first last) in
        if (q : bool) then
          let2 x := there (i_get it first) in
          let2 pos := here (lst_insert cf o pos (LAVal x)) in
          let2 e := here has_err in
          if (e : bool) then ret2 tt else
          let2 first := there (i_inc it first) in
          lst_insert_it fuel o pos first last
        else ret2 tt
    end.

  (** rbt.hpp:2116-2129 *)
  Fixpoint tree_insert_it (comp : V -> V -> bool) (fuel : nat) (o : tset) (first last : I) : M2 (tcell V) C unit :=
    match fuel with
    | 0 => fail2 FFuel
    | S fuel =>
        let2 q := there (i_ne it first last) in
        if (q : bool) then
          let2 x := there (i_get it first) in
          do2 here (insert_unique_at cf comp o (t_end o) (TAVal x)) in
          let2 e := here has_err in
          if (e : bool) then ret2 tt else
          let2 first := there (i_inc it first) in
          tree_insert_it comp fuel o first last
        else ret2 tt
    end.

  (** *d = x, as [assign_at] (AlgoModel.v) *)
  Definition assign_val (torn : nat -> V -> V -> V) (d : ptr) (v : V) : M (vblock V) unit :=
    match c_kind cf with
    | Nothrow => overwrite d v
    | Direct | TwoPhase =>
        let! ev := next_event in
        match ev with
        | EvOk _ => overwrite d v
        | EvFail code =>
            let! old := read d in
            do! overwrite d (torn code old v) in
            put_err (Some (EElem code))
        end
    end.
  (** algorithm.hpp:16-34, to an array *)
  Fixpoint copy_if_it (torn : nat -> V -> V -> V) (pred : V -> bool) (fuel : nat) (first last : I) (d_first : ptr) : M2 (vblock V) C ptr :=
    match fuel with
    | 0 => fail2 FFuel
    | S fuel =>
        let2 q := there (i_ne it first last) in
        if (q : bool) then
          let2 x := there (i_get it first) in
          if pred x then
            let2 x := there (i_get it first) in
            do2 here (assign_val torn d_first x) in
            let2 e := here has_err in
            if (e : bool) then ret2 d_first else
            let2 d_first := here (padd d_first 1) in
            let2 first := there (i_inc it first) in
            copy_if_it torn pred fuel first last d_first
          else
            let2 first := there (i_inc it first) in
            copy_if_it torn pred fuel first last d_first
        else ret2 d_first
    end.
  (** algorithm.hpp:36-52, to an array *)
  Fixpoint copy_it (torn : nat -> V -> V -> V) (fuel : nat) (first last : I) (d_first : ptr) : M2 (vblock V) C ptr :=
    match fuel with
    | 0 => fail2 FFuel
    | S fuel =>
        let2 q := there (i_ne it first last) in
        if (q : bool) then
          let2 x := there (i_get it first) in
          do2 here (assign_val torn d_first x) in
          let2 e := here has_err in
          if (e : bool) then ret2 d_first else
          let2 d_first := here (padd d_first 1) in
          let2 first := there (i_inc it first) in
          copy_it torn fuel first last d_first
        else ret2 d_first
    end.
End functions.

(** Two ranges, each in its memory *)
Section compare.
  Context {C1 C2 I1 I2 V : Type} (it1 : iterator C1 V I1) (it2 : iterator C2 V I2).
  (** algorithm.hpp:54-65, 69-80 *)
  Fixpoint equal_it (p : V -> V -> bool) (fuel : nat) (first1 last1 : I1) (first2 : I2) : M2 C1 C2 bool :=
    match fuel with
    | 0 => fail2 FFuel
    | S fuel =>
        let2 q := here (i_ne it1 first1 last1) in
        if (q : bool) then
          let2 x := here (i_get it1 first1) in
          let2 y := there (i_get it2 first2) in
          if p x y then
            let2 first1 := here (i_inc it1 first1) in
            let2 first2 := there (i_inc it2 first2) in
            equal_it p fuel first1 last1 first2
          else ret2 false
        else ret2 true
    end.
  (** algorithm.hpp:83-101, 103-122 *)
  Fixpoint lex_it (comp : V -> V -> bool) (fuel : nat) (first1 last1 : I1) (first2 last2 : I2) : M2 C1 C2 bool :=
    match fuel with
    | 0 => fail2 FFuel
    | S fuel =>
        let2 q1 := here (i_ne it1 first1 last1) in
        let2 q2 := (if (q1 : bool) then there (i_ne it2 first2 last2) else ret2 false) in
        if (q2 : bool) then
          let2 x := here (i_get it1 first1) in
          let2 y := there (i_get it2 first2) in
          if comp x y then ret2 true else
          let2 y := there (i_get it2 first2) in
          let2 x := here (i_get it1 first1) in
          if comp y x then ret2 false else
          let2 first1 := here (i_inc it1 first1) in
          let2 first2 := there (i_inc it2 first2) in
          lex_it comp fuel first1 last1 first2 last2
        else
          let2 q1 := here (i_ne it1 first1 last1) in
          if (q1 : bool) then ret2 false else there (i_ne it2 first2 last2)
    end.
End compare.
