(** * Facts about the vector model needed by the property theorems *)
From Verif Require Export VecHist.

Section extra.
  Context {V : Type} (cf : cfg V).
  Notation W := (world (vblock V)).
  Implicit Types w : W.

  (** n * sizeof(T) wraps: allocate() hands out too little room. *)
  Lemma allocate_overflow al n w :
    w_orc w = [] -> (2^64 <= N.of_nat n * c_sizeof cf)%N ->
    (wrap64 (N.of_nat n * c_sizeof cf) <= c_max cf)%N -> (0 < c_sizeof cf)%N ->
    exists b room w', allocate cf al n w = Done (Ptr b 0) w' /\ room < n /\
      w_heap w' = <[b := Block al n room ∅]> (w_heap w) /\ w_heap w !! b = None /\ w_err w' = w_err w.
  Proof.
    intros Horc Hbig Hmax Hs. unfold allocate. cbv zeta. rewrite decide_False by lia.
    unfold bind, alloc_cell, bind, tick_alloc, next_event. simpl. rewrite Horc. simpl.
    eexists _, _, _. split; [reflexivity|]. split; [|split; [reflexivity|split; [apply pick_fresh|reflexivity]]].
    unfold wrap64 in *. remember (N.of_nat n * c_sizeof cf)%N as b eqn:Hb.
    assert (b mod 2^64 < 2^64)%N by (apply N.mod_lt; lia).
    assert ((b mod 2^64) / c_sizeof cf < N.of_nat n)%N; [|lia].
    apply N.div_lt_upper_bound; lia.
  Qed.

  Lemma reserve_overflow al n w :
    w_orc w = [] -> w_err w = None -> fits n -> (2^64 <= N.of_nat n * c_sizeof cf)%N ->
    (wrap64 (N.of_nat n * c_sizeof cf) <= c_max cf)%N -> (0 < c_sizeof cf)%N ->
    vec_reserve cf (vec_new al) n w = Fault FBounds.
  Proof.
    intros Horc He Hf Hbig Hmax Hs.
    destruct (allocate_overflow al n w Horc Hbig Hmax Hs) as (b & room & w' & Ha & Hr & Hh & _ & He').
    unfold vec_reserve, vec_capacity. simpl.
    unfold bind at 1. unfold pdiff at 1. cbn [ret].
    rewrite decide_False by lia. rewrite decide_False by (unfold fits, size_max in *; lia).
    unfold do_reserve. simpl. unfold bind at 1. rewrite Ha.
    unfold bind at 1, has_err at 1. rewrite He', He.
    assert (Hu : forall w1, uninitialised_copy cf Null Null (Ptr b 0) w1 = Done (Ptr b 0) w1) by done.
    unfold bind at 1. rewrite Hu. unfold bind at 1, has_err at 1. rewrite He', He.
    unfold bind at 1, vec_size at 1. simpl. unfold pdiff at 1. cbn [ret].
    assert (Hp0 : padd (Ptr b 0) 0 w' = Done (Ptr b 0) w').
    { unfold padd, load_block, load, bind, get_heap. rewrite Hh, lookup_insert. cbn [ret b_room].
      by rewrite decide_True by lia. }
    assert (Hpn : padd (Ptr b 0) n w' = Fault FBounds).
    { unfold padd, load_block, load, bind, get_heap. rewrite Hh, lookup_insert. cbn [ret b_room].
      by rewrite decide_False by lia. }
    change ((let! fin := padd (Ptr b 0) 0 in
             let! eos := padd (Ptr b 0) n in
             do! deallocate al Null n in
             ret (Vec al (Ptr b 0) fin eos)) w' = Fault FBounds).
    unfold bind at 1. rewrite Hp0. unfold bind at 1. by rewrite Hpn.
  Qed.
End extra.
