(** * Histories over vectors of vectors: client programs and their meaning *)
From Verif Require Export NestSpec VecHistSpec.

(** What is passed to push_back or resize: a temporary plain element, a whole
    vector, or element [q] of the vector that is reached from v_j by indexing
    along [p].  For instance [NElem 1 [4; 0] 2] is v_1[4][0][2]. *)
Inductive nsrc (T : Type) :=
| NTemp (t : T)
| NVar (j : nat)
| NElem (j : nat) (p : list nat) (q : nat).
Arguments NTemp {T}.
Arguments NVar {T}.
Arguments NElem {T}.

(** Calls on the vector that is reached from v_i by indexing along [p]
    ([]: v_i itself).  Every call gets a fresh error object. *)
Inductive nop (T : Type) :=
| NPush (i : nat) (p : list nat) (s : nsrc T)              (* v_i[p].push_back_nothrow(err, s) *)
| NResize (i : nat) (p : list nat) (n : nat) (s : nsrc T)  (* v_i[p].resize_nothrow(err, n, s) *)
| NReserve (i : nat) (p : list nat) (n : nat)
| NShrink (i : nat) (p : list nat)
| NClear (i : nat) (p : list nat)
| NCopy (i : nat) (p : list nat) (j : nat) (q : list nat)  (* v_i[p].copy_nothrow(err, v_j[q]) *)
| NAssign (i : nat) (p : list nat) (j : nat) (q : list nat) (a b : nat)
                          (* v_i[p].assign_nothrow(err, v_j[q].begin()+a, v_j[q].begin()+b) *)
| NThrowingCopy (i : nat) (p : list nat) (j : nat) (q : list nat)  (* v_i[p] = v_j[q], with exceptions *)
| NMove (i j : nat)                                        (* v_i = std::move(v_j) *)
| NSwap (i j : nat).                                       (* v_i.swap(v_j) *)
Arguments NPush {T}.
Arguments NResize {T}.
Arguments NReserve {T}.
Arguments NShrink {T}.
Arguments NClear {T}.
Arguments NCopy {T}.
Arguments NAssign {T}.
Arguments NThrowingCopy {T}.
Arguments NMove {T}.
Arguments NSwap {T}.

Section hist.
  Context {T : Type} (lc : nat -> cfg (val T)) (ex : bool).
  Notation MV := (M (vblock (val T))).

  (** A variable: a vector whose elements have depth [d]. *)
  Notation nvar := (nat * vec_obj)%type.
  Notation row := (list nvar).

  (** The vector that is reached from [v] along [p], if the indices are in range. *)
  Fixpoint locate (d : nat) (p : list nat) (v : vec_obj) : MV (option vec_obj) :=
    match p with
    | [] => ret (Some v)
    | k :: p =>
        let! n := vec_size v in
        if decide (k < n) then
          let! x := vec_at (lc d) v k in
          let! u := as_vec x in
          locate (pred d) p u
        else ret None
    end.

  (** Apply [f] to it, in place. *)
  Fixpoint at_path (d : nat) (p : list nat) (v : vec_obj) (f : nat -> vec_obj -> MV vec_obj) : MV vec_obj :=
    match p with
    | [] => f d v
    | k :: p =>
        let! n := vec_size v in
        if decide (k < n) then
          let! pos := vec_index (lc d) v k in
          let! x := read pos in
          let! u := as_vec x in
          let! u := at_path (pred d) p u f in
          do! overwrite pos (VVec u) in
          ret v
        else ret v
    end.

  Definition with_var (vs : row) (i : nat) (k : nvar -> MV row) : MV row :=
    match vs !! i with Some v => k v | None => ret vs end.
  Definition on_var (vs : row) (i : nat) (p : list nat) (f : nat -> vec_obj -> MV vec_obj) : MV row :=
    with_var vs i (fun v =>
      let! u := at_path v.1 p v.2 f in
      ret (<[ i := (v.1, u) ]> vs)).
  (** the vector at v_j[q]; if there is none, no call is made *)
  Definition with_vec_at (vs : row) (j : nat) (q : list nat) (k : vec_obj -> MV row) : MV row :=
    with_var vs j (fun o =>
      let! r := locate o.1 q o.2 in
      match r with Some u => k u | None => ret vs end).
  Definition with_src (vs : row) (s : nsrc T) (k : arg (val T) -> MV row) : MV row :=
    match s with
    | NTemp t => k (AVal (VElem t))
    | NVar j => with_var vs j (fun o => k (AVal (VVec o.2)))
    | NElem j p q =>
        with_vec_at vs j p (fun u =>
          let! n := vec_size u in
          if decide (q < n) then
            let! r := padd (m_start u) q in
            k (ARef r)
          else ret vs)
    end.

  Definition exec_nop (op : nop T) (vs : row) : MV row :=
    match op with
    | NPush i p s => with_src vs s (fun a =>
        on_var vs i p (fun d v => g_push_back (lc d) (ncons lc ex d) (ndes d) v a))
    | NResize i p n s => with_src vs s (fun a =>
        on_var vs i p (fun d v => g_resize (lc d) (ncons lc ex d) (ndes d) v n a))
    | NReserve i p n => on_var vs i p (fun d v => g_reserve (lc d) (ncons lc ex d) (ndes d) v n)
    | NShrink i p => on_var vs i p (fun d v => g_shrink_to_fit (lc d) (ncons lc ex d) (ndes d) v)
    | NClear i p => on_var vs i p (fun d v => g_clear (ndes d) v)
    | NCopy i p j q => with_vec_at vs j q (fun o =>
        on_var vs i p (fun d v => g_copy (lc d) (ncons lc ex d) (ndes d) v o))
    | NAssign i p j q a b => with_vec_at vs j q (fun o =>
        let! first := pos_at o a in
        let! last := pos_at o b in
        on_var vs i p (fun d v => g_assign_ptrs (lc d) (ncons lc ex d) (ndes d) v first last))
    | NThrowingCopy i p j q => with_vec_at vs j q (fun o =>
        on_var vs i p (fun d v =>
          let! r := g_copy_assign (lc d) (ncons lc ex d) (ndes d) v o in
          do! put_err r.2 in                  (* the client catches the exception *)
          ret r.1))
    | NMove i j => with_var vs i (fun v => with_var vs j (fun o =>
        let! r := g_move_assign (ndes v.1) v.2 o.2 in
        ret (<[ i := (v.1, r.1) ]> (<[ j := (o.1, r.2) ]> vs))))
    | NSwap i j => with_var vs i (fun v => with_var vs j (fun o =>
        let r := vec_swap v.2 o.2 in
        ret (<[ i := (v.1, r.1) ]> (<[ j := (o.1, r.2) ]> vs))))
    end.

  Fixpoint exec_nops (ops : list (nop T)) (vs : row) : MV (row * list (option error)) :=
    match ops with
    | [] => ret (vs, [])
    | op :: ops =>
        do! put_err None in
        let! vs := exec_nop op vs in
        let! e := get_err in
        let! r := exec_nops ops vs in
        ret (r.1, e :: r.2)
    end.

  Fixpoint destroy_nrow (vs : row) : MV unit :=
    match vs with
    | [] => ret tt
    | v :: vs => do! g_vec_destroy (ndes v.1) v.2 in destroy_nrow vs
    end.

  (** ** Reading everything: the elements in order, with size() and operator[] *)
  Fixpoint nread (d : nat) (v : val T) : MV (deep T) :=
    match d, v with
    | 0, VElem t => ret (DElem t)
    | S d, VVec o =>
        let! n := vec_size o in
        let! l := (fix go (k : nat) : MV (list (deep T)) :=
                     match k with
                     | 0 => ret []
                     | S k =>
                         let! l := go k in
                         let! x := vec_at (lc d) o k in
                         let! y := nread d x in
                         ret (l ++ [y])
                     end) n in
        ret (DList l)
    | _, _ => fail FRaw
    end.

  (** ** What the calls mean, on nested lists *)

  (** A change [R] of the list that is reached from [x] along [p]; no call if
      there is none. *)
  Fixpoint on_path (p : list nat) (R : list (deep T) -> option error -> list (deep T) -> Prop)
      (x : deep T) (e : option error) (x' : deep T) : Prop :=
    match x, p with
    | DList l, [] => exists l', R l e l' /\ x' = DList l'
    | DList l, k :: p =>
        match l !! k with
        | Some y => exists y', on_path p R y e y' /\ x' = DList (<[ k := y' ]> l)
        | None => e = None /\ x' = x
        end
    | DElem _, _ => False
    end.
  Fixpoint dget (p : list nat) (x : deep T) : option (deep T) :=
    match p, x with
    | [], _ => Some x
    | k :: p, DList l => l !! k ≫= dget p
    | _ :: _, DElem _ => None
    end.

  Definition on_nvar (i : nat) (p : list nat) (R : list (deep T) -> option error -> list (deep T) -> Prop)
      (xs : list (deep T)) (e : option error) (xs' : list (deep T)) : Prop :=
    match xs !! i with
    | Some x => exists x', on_path p R x e x' /\ xs' = <[ i := x' ]> xs
    | None => e = None /\ xs' = xs
    end.
  Definition no_call (xs : list (deep T)) (e : option error) (xs' : list (deep T)) : Prop := e = None /\ xs' = xs.

  Definition src_val (s : nsrc T) (xs : list (deep T)) : option (deep T) :=
    match s with
    | NTemp t => Some (DElem t)
    | NVar j => xs !! j
    | NElem j p q => xs !! j ≫= dget (p ++ [q])
    end.

  (** all of [src] on success, some of it on failure *)
  Definition nbecomes (src l : list (deep T)) (e : option error) (l' : list (deep T)) : Prop :=
    match e with
    | None => l' = src
    | Some _ => exists k, k <= length src /\ l' = take k src
    end.

  Definition nop_spec (op : nop T) (xs : list (deep T)) (e : option error) (xs' : list (deep T)) : Prop :=
    match op with
    | NPush i p s =>
        match src_val s xs with
        | Some x => on_nvar i p (vop_spec (OpPush x)) xs e xs'
        | None => no_call xs e xs'
        end
    | NResize i p n s =>
        match src_val s xs with
        | Some x => on_nvar i p (vop_spec (OpResize n x)) xs e xs'
        | None => no_call xs e xs'
        end
    | NReserve i p _ | NShrink i p => on_nvar i p (fun l _ l' => l' = l) xs e xs'
    | NClear i p => on_nvar i p (fun _ e l' => e = None /\ l' = []) xs e xs'
    | NCopy i p j q =>
        match xs !! j ≫= dget q with
        | Some (DList src) => on_nvar i p (nbecomes src) xs e xs'
        | _ => no_call xs e xs'
        end
    | NAssign i p j q a b =>
        match xs !! j ≫= dget q with
        | Some (DList src) => on_nvar i p (nbecomes (take (b - a) (drop a src))) xs e xs'
        | _ => no_call xs e xs'
        end
    | NThrowingCopy i p j q =>
        match xs !! j ≫= dget q with
        | Some (DList src) => on_nvar i p (fun l e l' => l' = match e with None => src | Some _ => l end) xs e xs'
        | _ => no_call xs e xs'
        end
    | NMove i j =>
        e = None /\
        match xs !! i, xs !! j with
        | Some _, Some src => xs' = <[ i := src ]> (<[ j := DList [] ]> xs)
        | _, _ => xs' = xs
        end
    | NSwap i j =>
        e = None /\
        match xs !! i, xs !! j with
        | Some x, Some y => xs' = <[ i := y ]> (<[ j := x ]> xs)
        | _, _ => xs' = xs
        end
    end.

  Fixpoint nops_spec (ops : list (nop T)) (xs : list (deep T)) (es : list (option error)) (xs' : list (deep T)) : Prop :=
    match ops, es with
    | [], [] => xs' = xs
    | op :: ops, e :: es => exists xs1, nop_spec op xs e xs1 /\ nops_spec ops xs1 es xs'
    | _, _ => False
    end.

  (** Histories covered: well typed for variables whose elements have the
      depths [ds], and byte counts that fit in a size_t.  push_back and resize
      do not get an element of the very vector they change (see C05); an
      element of any other vector of the same variable may be passed, and
      copy, assign and the throwing copy may use any vector, also the target. *)
  Definition elem_depth (ds : list nat) (i : nat) (p : list nat) (d : nat) : Prop :=
    exists di, ds !! i = Some di /\ di = d + length p.
  Definition src_typed (ds : list nat) (i : nat) (p : list nat) (d : nat) (s : nsrc T) : Prop :=
    match s with
    | NTemp _ => d = 0
    | NVar j => elem_depth ds j [] (pred d) /\ d <> 0
    | NElem j q _ => (j, q) <> (i, p) /\ elem_depth ds j q d
    end.
  Definition nop_legal (ds : list nat) (op : nop T) : Prop :=
    match op with
    | NPush i p s => exists d, elem_depth ds i p d /\ src_typed ds i p d s
    | NResize i p n s => exists d, elem_depth ds i p d /\ src_typed ds i p d s /\ bytes_fit (lc d) n
    | NReserve i p n => exists d, elem_depth ds i p d /\ bytes_fit (lc d) n
    | NShrink i p | NClear i p => exists d, elem_depth ds i p d
    | NCopy i p j q | NThrowingCopy i p j q => exists d, elem_depth ds i p d /\ elem_depth ds j q d
    | NAssign i p j q a b => a <= b /\ exists d, elem_depth ds i p d /\ elem_depth ds j q d
    | NMove i j | NSwap i j => i <> j /\ exists d, elem_depth ds i [] d /\ elem_depth ds j [] d
    end.

  Definition nvar_own (v : nvar) (x : deep T) (h : gmap addr (vblock (val T))) : Prop :=
    m_allocator v.2 = c_dflt (lc v.1) /\
    exists xs cap, x = DList xs /\ nvec_owns (lc v.1) (obj_owns lc v.1) v.2 xs cap h.
End hist.
