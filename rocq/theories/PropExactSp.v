(** * shared_ptr and weak_ptr: what happens where a partial theorem stops

    As PropExactVec.v: for every case outside the range of a [_partial]
    theorem of PropSp.v (C44, C45, C48, C56), what the code does there. *)
From Verif Require Import SpHist Stops.

Definition xsD : cfg nat := Cfg true 8 (2^62) 0 Direct 0.
Definition xsw : world (scell nat) := World ∅ [] None 0 0.

(** ** C44: lock() of an expired weak_ptr *)

Section expired.
  Context {V : Type} (cf : cfg V).
  Lemma expired_block (h : gmap addr (scell V)) l x c : sp_state h -> holds h l x -> h_rc x = Some c -> owners h c = 0 ->
    exists b, h !! c = Some (SBlock b) /\ cb_use b = 0%Z /\ cb_val b = None /\ cb_weak b = Z.of_nat (watchers h c).
  Proof.
    intros Hs Hx Hc Ho. destruct (holds_inv_block _ _ _ _ (state_inv _ Hs) Hx Hc) as (b & Hb & _). exists b. split; [done|].
    split; [by rewrite (sps_use _ Hs _ _ Hb), Ho|]. split; [|by apply (sps_weak _ Hs)].
    destruct (cb_val b) eqn:E; [|done]. pose proof (proj1 (sps_alive _ Hs _ _ Hb)). rewrite E in H. assert (0 < owners h c) by (by apply H). lia.
  Qed.
  Lemma runs_lock_expired w l x c (Q : _ -> world (scell V) -> Prop) :
    sp_state (w_heap w) -> holds (w_heap w) l x -> h_rc x = Some c -> owners (w_heap w) c = 0 ->
    (forall b, w_heap w !! c = Some (SBlock b) ->
       Q (Handle KShared (Some c) (Some c)) (set_heap (<[c:=SBlock (CB (cb_alloc b) 1 (cb_weak b) None)]> (w_heap w)) w)) ->
    runs (wp_lock cf l) w Q.
  Proof.
    intros Hs Hx Hc Ho HQ. destruct (expired_block _ _ _ _ Hs Hx Hc Ho) as (b & Hb & Hu & Hv & _).
    unfold wp_lock. rbind. eapply runs_get_handle; [exact Hx|]. rewrite (holds_ptr _ _ _ _ _ (state_inv _ Hs) Hx), Hc.
    unfold sp_raw, ref_opt, add_ref. rbind. rbind. eapply runs_get_block; [done|]. rbind. apply runs_assert; [apply bool_decide_eq_true; lia|].
    eapply runs_put_block; [done|]. apply runs_ret. rewrite Hu, Hv. by apply HQ.
  Qed.
End expired.

(** A weak_ptr without an object: null ones give null; expired ones give a
    pointer that is not null, that claims to be the only owner of the object,
    and through which the object (destroyed before) can be neither read nor
    released. *)
Theorem C44_lock_expired V (cf : cfg V) w l x :
  sp_state (w_heap w) -> holds (w_heap w) l x ->
  (forall c, h_rc x = Some c -> owners (w_heap w) c = 0) ->
  runs (wp_expired cf l) w (fun e w' => e = true /\ w' = w) /\
  match h_rc x with
  | None => runs (wp_lock cf l) w (fun y w' => y = null KShared /\ w' = w)
  | Some c =>
      let locked {A} (k : loc -> M (scell V) A) := (let! y := wp_lock cf l in let! a := make_var y in k (a, 0)) in
      runs (wp_lock cf l) w (fun y _ => y = Handle KShared (Some c) (Some c)) /\
      runs (locked (sp_use_count cf)) w (fun n _ => n = 1%Z) /\
      locked (sp_deref cf) w = Fault FRaw /\
      locked (fun a => drop_var cf a.1) w = Fault FRaw /\
      locked (sp_reset cf) w = Fault FRaw
  end.
Proof.
  intros Hs Hx Ho. pose proof (state_inv _ Hs) as Hi. split.
  - eapply runs_wp_expired; [done..|]. intros e He. split; [|done]. destruct e; [done|]. destruct (proj1 He eq_refl) as (c & Hc & Hp).
    rewrite (Ho c Hc) in Hp. lia.
  - destruct (h_rc x) as [c|] eqn:Hc.
    2:{ unfold wp_lock. rbind. eapply runs_get_handle; [exact Hx|]. rewrite (holds_ptr _ _ _ _ _ Hi Hx), Hc. unfold sp_raw. rbind. apply runs_ret. by apply runs_ret. }
    specialize (Ho c eq_refl). intros locked. set (y := Handle KShared (Some c) (Some c)).
    assert (Hrun : exists a (b0 : cblock V), a <> c /\ forall A (k : loc -> M (scell V) A),
      locked A k w = k (a, 0) (set_heap (<[a:=SVar y]> (<[c:=SBlock (CB (cb_alloc b0) 1 (cb_weak b0) None)]> (w_heap w))) w)).
    { destruct (expired_block _ _ _ _ Hs Hx Hc Ho) as (b & Hb & _).
      assert (Hr : runs (let! y := wp_lock cf l in make_var y) w (fun a w' => a <> c /\
        w' = set_heap (<[a:=SVar y]> (<[c:=SBlock (CB (cb_alloc b) 1 (cb_weak b) None)]> (w_heap w))) w)).
      { rbind. eapply runs_lock_expired; [done..|]. intros b' Hb'. assert (b' = b) as -> by congruence. apply runs_new_local. simpl.
        intros a Ha. split; [|done]. intros ->. by rewrite lookup_insert in Ha. }
      destruct Hr as (a & w' & E & Hac & ->). exists a, b. split; [done|]. intros A k. unfold locked. revert E. unfold bind.
      destruct (wp_lock cf l w) as [y' w1|]; [|done]. by intros ->. }
    destruct Hrun as (a & b0 & Hac & Hrun). set (h := <[a:=SVar y]> _) in Hrun.
    assert (Ha : h !! a = Some (SVar y)) by apply lookup_insert.
    assert (Hhc : h !! c = Some (SBlock (CB (cb_alloc b0) 1 (cb_weak b0) None))) by (unfold h; rewrite lookup_insert_ne by done; apply lookup_insert).
    assert (Hy : holds h (a, 0) y) by (unfold holds; simpl; by rewrite Ha).
    assert (Hrel : forall h', h' !! c = Some (SBlock (CB (cb_alloc b0) 1 (cb_weak b0) None)) -> release_top cf c (set_heap h' w) = Fault FRaw).
    { intros h' Hh'. apply stops_false. unfold release_top. sstep. apply runs_get_heap. cbn [release w_heap set_heap]. sstep.
      eapply (runs_get_block (set_heap h' w)); [exact Hh'|]. sstep. apply runs_assert; [done|]. sstep. eapply (runs_put_block (set_heap h' w)); [exact Hh'|].
      simpl. apply stops_bind. sstep. eapply runs_get_block; [apply lookup_insert|]. simpl. by apply stops_fault. }
    split; [by eapply runs_lock_expired|]. split.
    { unfold runs. rewrite Hrun. change (runs (sp_use_count cf (a, 0)) (set_heap h w) (fun n _ => n = 1%Z)). unfold sp_use_count. rbind.
      eapply (runs_get_handle (set_heap h w)); [exact Hy|]. simpl. unfold cb_use_count. rbind. eapply (runs_get_block (set_heap h w)); [exact Hhc|].
      rbind. apply runs_assert; [done|]. by apply runs_ret. }
    split; [|split].
    + rewrite Hrun. apply stops_false. unfold sp_deref. sstep. eapply (runs_get_handle (set_heap h w)); [exact Hy|].
      sstep. apply runs_assert; [by apply bool_decide_eq_true|]. simpl. sstep. eapply (runs_get_block (set_heap h w)); [exact Hhc|]. by apply stops_fault.
    + rewrite Hrun. apply stops_false. unfold drop_var. sstep. eapply (runs_get_handle (set_heap h w)); [exact Hy|].
      sstep. eapply runs_free_cell; [exact Ha|]. simpl. apply stops_fault. unfold destroy_handle. simpl. apply (Hrel (delete a h)). by rewrite lookup_delete_ne.
    + rewrite Hrun. apply stops_false. unfold sp_reset. sstep. eapply (runs_get_handle (set_heap h w)); [exact Hy|].
      sstep. eapply (runs_put_handle (set_heap h w)); [exact Hy|]. simpl. apply stops_fault. unfold destroy_handle. simpl. apply Hrel. unfold put. simpl. by rewrite lookup_alter_ne.
Qed.
Print Assumptions C44_lock_expired.

(** The memory after a program. *)
Definition run_heap (ops : list (spop nat)) : gmap addr (scell nat) :=
  match exec_spops xsD ops [] xsw with Done _ w => w_heap w | Fault _ => ∅ end.
Lemma run_heap_state ops : sp_state (run_heap ops).
Proof.
  unfold run_heap. pose proof (exec_spops_good xsD true ops [] xsw (good_start _ _ _ _) ltac:(done)) as Hr. unfold ends in Hr.
  apply inv_state. destruct (exec_spops _ _ _ _) as [vars w|f]; [by apply Hr|]. apply (good_start [] None 0 0).
Qed.

(** the weak_ptr of a program whose object has died *)
Definition x_expired : list (spop nat) := [SoMake 7 []; SoWeak (EVar 0); SoDrop 0].
Example C44_expired_example :
  let h := run_heap x_expired in
  sp_state h /\ holds h (3%positive, 0) (Handle KWeak (Some 1%positive) (Some 1%positive)) /\ owners h 1%positive = 0.
Proof. split; [apply run_heap_state|]. split; by vm_compute. Qed.

(** ** C45: self assignment of the last weak_ptr to a dead object; move assignment *)

(** With C45_weak_assign_partial this covers every copy assignment. *)
Theorem C45_self_assign_last V (cf : cfg V) w l x c :
  sp_state (w_heap w) -> holds (w_heap w) l x -> refers KWeak c x ->
  owners (w_heap w) c = 0 -> watchers (w_heap w) c = 1 ->
  wp_assign cf l l w = Fault FFreed.
Proof.
  intros Hs Hx [Hk Hc] Ho Hw. destruct (expired_block _ _ _ _ Hs Hx Hc Ho) as (b & Hb & Hu & Hv & Hwk). rewrite Hw in Hwk.
  assert (Hrel : wrel (w_heap w) c = delete c (w_heap w)) by (unfold wrel; rewrite Hb, decide_True by lia; done).
  assert (Hx' : holds (delete c (w_heap w)) l x).
  { rewrite <-Hrel. apply holds_wrel; [|done]. intros b' Hb'. by assert (b' = b) as -> by congruence. }
  apply stops_false. unfold wp_assign. sstep. eapply runs_get_handle; [exact Hx|]. sstep. unfold destroy_handle. rewrite Hc, Hk.
  eapply runs_weak_release_det; [exact Hb|lia|done|]. rewrite Hrel.
  sstep. eapply (runs_get_handle (set_heap _ w)); [exact Hx'|]. sstep. eapply (runs_put_handle (set_heap _ w)); [exact Hx'|]. rewrite Hc. cbn [weak_ref_opt].
  apply stops_fault. unfold weak_add_ref, get_block, load, bind, get_heap. cbn [w_heap set_heap].
  assert (put (delete c (w_heap w)) l (Handle KWeak (h_ptr x) (Some c)) !! c = None) as ->; [|done].
  unfold put. destruct (decide (c = l.1)) as [->|Hn]; [by rewrite lookup_alter, lookup_delete|]. by rewrite lookup_alter_ne, lookup_delete.
Qed.
Print Assumptions C45_self_assign_last.

Lemma put_same {V} (h : gmap addr (scell V)) l x : holds h l x -> put h l x = h.
Proof.
  intros Hx. unfold put. apply map_eq. intros a. destruct (decide (a = l.1)) as [->|Hn]; [|by rewrite lookup_alter_ne].
  rewrite lookup_alter. unfold holds in Hx. destruct (h !! l.1) as [[y|[al u wk vl]]|]; simpl in *; [by destruct Hx as [_ ->]| |done].
  destruct Hx as (v & hs & -> & Hx). simpl. by rewrite list_insert_id.
Qed.

(** Move assignment from another weak_ptr to an object: both now refer to the
    object, but they are counted as one.  From a null one, and from itself, it
    leaves a state as it should be; moved onto itself a weak_ptr is null. *)
Theorem C45_move_assign V (cf : cfg V) w l l' x y :
  sp_state (w_heap w) -> holds (w_heap w) l x -> holds (w_heap w) l' y -> h_kind x = KWeak -> h_kind y = KWeak ->
  runs (wp_move_assign cf l l') w (fun _ w' => exists h', only_heap w h' w' /\
    if decide (l = l') then sp_state h' /\ holds h' l (null KWeak)
    else holds h' l y /\ holds h' l' y /\
      match h_rc y with
      | None => sp_state h'
      | Some c => exists b, h' !! c = Some (SBlock b) /\ (cb_weak b = Z.of_nat (watchers h' c) - 1)%Z
      end).
Proof.
  intros Hs Hx Hy Hkx Hky. pose proof (state_inv _ Hs) as Hi. set (h := w_heap w) in *.
  (* releasing the old contents of [l] while [l'] contains [z]: as if [l'] were null *)
  assert (Hrel : forall g z (Q : _ -> world (scell V) -> Prop), inv g [x] [] -> holds g l' (null KWeak) ->
    (forall g', inv g' [] [] -> shrinks g g' -> (forall l0 z0, holds g l0 z0 -> holds g' l0 z0) -> Q tt (set_heap (put g' l' z) w)) ->
    runs (destroy_handle cf x) (set_heap (put g l' z) w) Q).
  { intros g z Q Hg Hgl HQ. unfold destroy_handle. rewrite Hkx. destruct (h_rc x) as [c|] eqn:Hc.
    - destruct (inv_tgt_block _ _ _ x c Hg) as [b Hb]; [left|done|].
      destruct (inv_weak_pos _ _ _ x c b Hg) as [Hw Hu]; [apply elem_of_app; right; left|done|done|].
      assert (Hu' : forall b, g !! c = Some (SBlock b) -> cb_use b = 0%Z -> cb_val b = None) by (intros b' Hb'; by assert (b' = b) as -> by congruence).
      assert (is_block (put g l' z) c) as [b' Hb'] by (apply put_is_block; by exists b).
      pose proof (put_block_inv _ _ _ _ _ Hb') as (b0 & Hb0 & _ & Hu0 & Hw0 & Hv0). assert (b0 = b) as -> by congruence.
      destruct (wrel_inv cf _ x c _ _ Hg) as [Hi2 Hs2]; [done|apply not_elem_of_nil|].
      eapply (runs_weak_release_det cf (set_heap (put g l' z) w)); [exact Hb'|lia| |].
      + intros Hz. rewrite Hu0 in Hz. specialize (Hu Hz). destruct (cb_val b'); [|done]. rewrite Hu in Hv0. destruct Hv0 as [Hv0 _]. by destruct (Hv0 (ex_intro _ _ eq_refl)).
      + cbn [w_heap set_heap]. rewrite <-(put_wrel g c l' (null KWeak) z) by done. apply HQ; [done|done|]. intros l0 z0. by apply holds_wrel.
    - apply runs_ret. apply HQ; [|apply shrinks_refl|done]. apply (inv_null _ (h_kind x)).
      assert (Hp : h_ptr x = None) by (rewrite <-Hc; by eapply (holds_ptr h)). destruct x; simpl in *; subst. exact Hg. }
  unfold wp_move_assign. rbind. eapply runs_get_handle; [exact Hx|]. rbind. eapply runs_put_handle; [exact Hx|]. fold h. change wp_null with (null KWeak).
  destruct (decide (l = l')) as [<-|Hn].
  - assert (Hl1 : holds (put h l (null KWeak)) l (null KWeak)) by (by eapply holds_put).
    rbind. eapply (runs_get_handle (set_heap _ w)); [exact Hl1|]. rbind. eapply (runs_put_handle (set_heap _ w)); [exact Hl1|]. cbn [w_heap set_heap].
    eapply (Hrel (put h l (null KWeak))); [by apply inv_put_null|done|]. intros g' Hg' Hs' Hh'. eexists. split; [done|].
    change (Handle KWeak (h_ptr (null KWeak)) (h_rc (null KWeak))) with (null KWeak). apply Hh' in Hl1. split; [|by eapply holds_put].
    apply inv_state. eapply (inv_put _ l (null KWeak) (null KWeak) [] []) in Hl1; [|by apply inv_null]. by apply inv_null in Hl1.
  - assert (Hy1 : holds (put h l (null KWeak)) l' y) by (eapply holds_put_ne; [done|done|by exists x]).
    assert (Hl1 : holds (put h l (null KWeak)) l (null KWeak)) by (by eapply holds_put).
    assert (Heta : Handle KWeak (h_ptr y) (h_rc y) = y) by (destruct y; simpl in *; by subst).
    rbind. eapply (runs_get_handle (set_heap _ w)); [exact Hy1|]. rbind. eapply (runs_put_handle (set_heap _ w)); [exact Hl1|]. cbn [w_heap set_heap].
    rewrite Heta, put_put. pose (g := put (put h l' (null KWeak)) l y).
    assert (Hx1 : holds (put h l' (null KWeak)) l x) by (eapply holds_put_ne; [done|done|by exists y]).
    assert (Hgi : inv g [x] []) by (eapply inv_put; [exact Hx1|]; by apply inv_put_null).
    assert (Hgl : holds g l' (null KWeak)) by (eapply holds_put_ne; [done|by eapply holds_put|by exists x]).
    assert (Hgy : holds g l y) by (by eapply holds_put).
    assert (Hg : put h l y = put g l' y).
    { unfold g. rewrite (put_comm (put h l' (null KWeak)) l l'); [|done|by exists x|exists (null KWeak); by eapply holds_put]. rewrite put_put.
      rewrite (put_same h l' y); [done|done]. }
    rewrite Hg. eapply Hrel; [done|done|]. intros g' Hg' Hs' Hh'. eexists. split; [done|]. apply Hh' in Hgl, Hgy. split.
    { eapply holds_put_ne; [done|done|by eexists]. }
    split; [by eapply holds_put|]. destruct (h_rc y) as [c|] eqn:Hc.
    + destruct (holds_inv_block _ _ _ _ Hg' Hgy Hc) as (b & Hb & _). assert (is_block (put g' l' y) c) as [b' Hb'] by (apply put_is_block; by exists b).
      exists b'. split; [done|]. pose proof (put_block_inv _ _ _ _ _ Hb') as (b0 & Hb0 & _ & _ & Hw0 & _). assert (b0 = b) as -> by congruence.
      rewrite Hw0, (sps_weak _ (inv_state _ Hg') _ _ Hb). destruct (handles_put g' l' y (null KWeak) Hgl) as (r & H1 & H2).
      unfold watchers. rewrite (refs_perm _ _ _ _ H1), (refs_perm _ _ _ _ H2), refs_null, refs_cons, decide_True by done. lia.
    + assert (Hp : h_ptr y = None) by (rewrite <-Hc; by eapply (holds_ptr h)).
      assert (y = null KWeak) as -> by (destruct y; simpl in *; by subst).
      apply inv_state. eapply (inv_put _ l' (null KWeak) (null KWeak) [] []) in Hgl; [|by apply inv_null]. by apply inv_null in Hgl.
Qed.
Print Assumptions C45_move_assign.

(** the last weak_ptr to a dead object; two weak_ptrs to a living one *)
Definition x_two_weak : list (spop nat) := [SoMake 7 []; SoWeak (EVar 0); SoMake 8 []; SoWeak (EVar 2)].
Example C45_exact_example :
  let h := run_heap x_expired in
  let h' := run_heap x_two_weak in
  sp_state h /\ holds h (3%positive, 0) (Handle KWeak (Some 1%positive) (Some 1%positive)) /\ owners h 1%positive = 0 /\ watchers h 1%positive = 1 /\
  sp_state h' /\ holds h' (3%positive, 0) (Handle KWeak (Some 1%positive) (Some 1%positive)) /\
  holds h' (6%positive, 0) (Handle KWeak (Some 4%positive) (Some 4%positive)).
Proof. split; [apply run_heap_state|]. do 3 (split; [by vm_compute|]). split; [apply run_heap_state|]. split; by vm_compute. Qed.

(** ** C48: p = std::move(p->next) *)

(** [a] is the variable p, [c] the object it owns, [j] the member next.  If p
    is the only owner, the object is destroyed before the member is read: the
    member is read in freed memory, or, if weak_ptrs keep the block, in a
    destroyed object.  If there is another owner, the move is what it should
    be. *)
Theorem C48_move_from_member V (cf : cfg V) w a x c j y :
  sp_state (w_heap w) -> w_heap w !! a = Some (SVar x) -> refers KShared c x ->
  holds (w_heap w) (c, j) y -> h_kind y = KShared ->
  let call := sp_move_assign cf (a, 0) (c, j) in
  if decide (owners (w_heap w) c = 1) then
    (watchers (w_heap w) c = 0 -> call w = Fault FFreed) /\
    (0 < watchers (w_heap w) c -> call w = Fault FFreed \/ call w = Fault FRaw) /\
    (0 < watchers (w_heap w) c -> release_safe (w_heap w) (a, 0) -> call w = Fault FRaw)
  else
    runs call w (fun _ w' => exists h', only_heap w h' w' /\ sp_state h' /\
      h' !! a = Some (SVar y) /\ holds h' (c, j) (null KShared) /\
      others_keep (w_heap w) h' [(a, 0); (c, j)] /\ evolves (w_heap w) h').
Proof.
  intros Hs Ha [Hk Hc] Hy Hky call. pose proof (state_inv _ Hs) as Hi. set (h := w_heap w) in *.
  assert (Hxa : holds h (a, 0) x) by (unfold holds; simpl; by rewrite Ha).
  set (h1 := put h (a, 0) (null KShared)).
  assert (Hi1 : inv h1 [x] []) by (by apply inv_put_null).
  destruct (holds_inv_block _ _ _ _ Hi Hxa Hc) as (b & Hb & _).
  assert (Hne : a <> c) by (intros ->; congruence).
  assert (Hb1 : h1 !! c = Some (SBlock b)) by (unfold h1, put; by rewrite lookup_alter_ne).
  assert (Ho1 : refs KShared c (handles h1) = owners h c - 1).
  { destruct (handles_put h (a, 0) (null KShared) x Hxa) as (r & H1 & H2). unfold owners.
    rewrite (refs_perm _ _ _ _ H1), (refs_perm _ _ _ _ H2), refs_null, refs_cons, decide_True by done. lia. }
  assert (Hd : ends true (destroy_handle cf x) (set_heap h1 w) (fun _ w' => exists h', w' = set_heap h' w /\ inv h' [] [] /\ shrinks h1 h' /\
    ((0 < cb_weak b)%Z -> exists b', h' !! c = Some (SBlock b') /\ (0 < cb_weak b')%Z))).
  { eapply ends_destroy; [exact Hi1|]. intros h' Hi' Hs' Hw'. exists h'. split_and!; [done..|]. intros Hp. by eapply Hw'. }
  assert (Hsub : forall h' k d, shrinks h1 h' -> refs k d (handles h1) = 0 -> refs k d (handles h') = 0).
  { intros h' k d [S1 S2] Hz. destruct (decide (0 < refs k d (handles h'))) as [Hp|]; [|lia]. exfalso. apply refs_pos in Hp as (z & Hz' & Hr).
    assert (0 < refs k d (handles h1)); [|lia]. apply refs_pos. exists z. split; [|done]. apply elem_of_handles in Hz' as (p & cl & Hp & Hin).
    apply elem_of_handles. destruct cl as [u|b'].
    - exists p, (SVar u). split; [by apply S1|done].
    - apply S2 in Hp as (b0 & Hp & _ & [Hv|Hv]); simpl in Hin; rewrite Hv in Hin; [|by apply elem_of_nil in Hin]. exists p, (SBlock b0). split; [done|]. exact Hin. }
  destruct (decide (owners h c = 1)) as [Ho|Ho].
  - (* only owner *)
    assert (Hcall : (destroy_handle cf x (set_heap h1 w) = Fault FFreed /\ call w = Fault FFreed) \/
      exists h', destroy_handle cf x (set_heap h1 w) = Done tt (set_heap h' w) /\ inv h' [] [] /\ shrinks h1 h' /\
        ((0 < cb_weak b)%Z -> exists b', h' !! c = Some (SBlock b') /\ (0 < cb_weak b')%Z) /\
        match h' !! c with None => call w = Fault FFreed | Some _ => call w = Fault FRaw end).
    { unfold ends in Hd. destruct (destroy_handle cf x (set_heap h1 w)) as [[] w1|f] eqn:E.
      - right. destruct Hd as (h' & -> & Hi' & Hs' & Hw'). exists h'. split_and!; [done..|].
        assert (Hst : forall f, get_handle (c, j) (set_heap h' w) = Fault f -> call w = Fault f).
        { intros f Hf. apply stops_false. unfold call, sp_move_assign. sstep. eapply runs_get_handle; [exact Hxa|]. sstep.
          eapply runs_put_handle; [exact Hxa|]. change (put (w_heap w) (a, 0) sp_null) with h1. sstep. eexists _, _. split; [exact E|].
          by apply stops_fault_bind. }
        destruct (h' !! c) as [cl|] eqn:Hc'.
        + apply Hst. unfold get_handle, load, bind, get_heap. simpl. rewrite Hc'. destruct cl as [u|b'].
          { apply (sh_var _ _ Hs') in Hc'. congruence. }
          assert (Hv : cb_val b' = None); [|by simpl; rewrite Hv]. pose proof (sps_alive _ (inv_state _ Hi') _ _ Hc') as Hal.
          destruct (cb_val b'); [|done]. assert (0 < owners h' c) by (apply Hal; by eexists). unfold owners in H. rewrite (Hsub h' KShared c Hs') in H; lia.
        + apply Hst. unfold get_handle, load, bind, get_heap. simpl. by rewrite Hc'.
      - left. destruct Hd as [_ ->]. split; [done|]. apply stops_false. unfold call, sp_move_assign. sstep. eapply runs_get_handle; [exact Hxa|]. sstep.
        eapply runs_put_handle; [exact Hxa|]. change (put (w_heap w) (a, 0) sp_null) with h1. by apply stops_fault_bind. }
    assert (Hwk : cb_weak b = Z.of_nat (watchers h c)) by (by apply (sps_weak _ Hs)).
    split_and!.
    + intros Hw. destruct Hcall as [[_ ?]|(h' & _ & Hi' & Hs' & _ & Hm)]; [done|]. destruct (h' !! c) as [cl|] eqn:Hc'; [exfalso|done].
      destruct cl as [u|b']; [apply (sh_var _ _ Hs') in Hc'; congruence|].
      assert (Hp : 0 < owners h' c + watchers h' c) by (apply (sps_block _ (inv_state _ Hi')); by exists b').
      unfold owners, watchers in Hp. rewrite (Hsub h' KShared c Hs'), (Hsub h' KWeak c Hs') in Hp; [lia| |lia].
      destruct (handles_put h (a, 0) (null KShared) x Hxa) as (r & H1 & H2). unfold watchers in Hw. rewrite (refs_perm _ _ _ _ H1), refs_cons in Hw.
      rewrite (refs_perm _ _ _ _ H2), refs_null. lia.
    + intros Hw. destruct Hcall as [[_ ?]|(h' & _ & Hi' & Hs' & _ & Hm)]; [by left|]. destruct (h' !! c); auto.
    + intros Hw Hsafe. destruct Hcall as [[Hf _]|(h' & _ & Hi' & Hs' & Hw' & Hm)].
      * exfalso. assert (Hr : ends false (destroy_handle cf x) (set_heap h1 w) (fun _ _ => True)).
        { eapply (ends_destroy_cut cf false h (a, 0)); simpl; [exact Hi1|eapply cut_put'; [|done]|done|done].
          intros [b0 Hb0]. simpl in Hb0. congruence. }
        unfold ends in Hr. rewrite Hf in Hr. by destruct Hr.
      * destruct Hw' as (b' & Hb' & _); [lia|]. by rewrite Hb' in Hm.
  - (* another owner *)
    assert (Hu : cb_use b = Z.of_nat (owners h c)) by (by apply (sps_use _ Hs)).
    assert (Hop : 0 < owners h c) by (apply refs_pos; exists x; split; [by eapply holds_handles|done]).
    set (h2 := <[c:=SBlock (CB (cb_alloc b) (cb_use b - 1) (cb_weak b) (cb_val b))]> h1).
    assert (E : destroy_handle cf x (set_heap h1 w) = Done tt (set_heap h2 w)).
    { assert (Hr : runs (destroy_handle cf x) (set_heap h1 w) (fun _ w' => w' = set_heap h2 w)).
      { unfold destroy_handle. rewrite Hc, Hk. unfold release_top. rbind. apply runs_get_heap. cbn [release w_heap set_heap]. rbind.
        eapply (runs_get_block (set_heap h1 w)); [exact Hb1|]. rbind. apply runs_assert; [apply bool_decide_eq_true; lia|]. rbind.
        eapply (runs_put_block (set_heap h1 w)); [exact Hb1|]. rewrite decide_False by lia. by apply runs_ret. }
      destruct Hr as ([] & w' & -> & ->). done. }
    unfold ends in Hd. rewrite E in Hd. destruct Hd as (h2' & Heq & Hi2 & Hs2 & _).
    assert (h2' = h2) as -> by (by injection Heq). clear Heq.
    assert (Hy1 : holds h1 (c, j) y) by (eapply holds_put_ne; [by intros [= ?]|done|by exists x]).
    assert (Hy2 : holds h2 (c, j) y).
    { unfold holds in *. simpl in *. rewrite Hb1 in Hy1. unfold h2. rewrite lookup_insert. exact Hy1. }
    assert (Hl1 : holds h1 (a, 0) (null KShared)) by (by eapply holds_put).
    assert (Hl2 : holds h2 (a, 0) (null KShared)).
    { unfold holds in *. simpl in *. unfold h2. by rewrite lookup_insert_ne. }
    unfold call, sp_move_assign. rbind. eapply runs_get_handle; [exact Hxa|]. rbind.
    eapply runs_put_handle; [exact Hxa|]. change (put (w_heap w) (a, 0) sp_null) with h1. rbind. eexists _, _. split; [exact E|].
    rbind. eapply (runs_get_handle (set_heap h2 w)); [exact Hy2|]. rbind. eapply (runs_put_handle (set_heap h2 w)); [exact Hy2|]. cbn [w_heap set_heap].
    change sp_null with (null KShared). set (h3 := put h2 (c, j) (null KShared)).
    assert (Hl3 : holds h3 (a, 0) (null KShared)) by (eapply holds_put_ne; [by intros [= ?]|done|by exists y]).
    assert (Heta : Handle KShared (h_ptr y) (h_rc y) = y) by (destruct y; simpl in *; by subst). rewrite Heta.
    eapply (runs_put_handle (set_heap h3 w)); [exact Hl3|]. cbn [w_heap set_heap]. eexists. split; [done|]. split.
    { apply inv_state. assert (Hi3 : inv h3 [y] []) by (by apply inv_put_null).
      eapply (inv_put _ (a, 0) y (null KShared)) in Hi3; [|done]. by apply (inv_null _ KShared) in Hi3. }
    assert (Hv : holds (put h3 (a, 0) y) (a, 0) y) by (by eapply holds_put).
    assert (Hev : evolves h (put h3 (a, 0) y)).
    { eapply (evolves_trans _ h1); [by eapply (evolves_put h (a, 0) (null KShared) x)|].
      eapply (evolves_trans _ h2); [by apply evolves_shrinks|].
      eapply (evolves_trans _ h3); [by eapply (evolves_put h2 (c, j) (null KShared) y)|]. by eapply evolves_put. }
    split.
    { destruct (proj1 (proj1 Hev a)) as [z Hz]; [by exists x|]. unfold holds in Hv. simpl in Hv. rewrite Hz in Hv. by destruct Hv as [_ <-]. }
    split.
    { eapply holds_put_ne; [by intros [= ?]|by eapply holds_put|by eexists]. }
    split; [|done].
    eapply (keep_trans _ h1); [eapply keep_weaken; [by eapply (keep_put h (a, 0) _ x)|set_solver]|].
    eapply (keep_trans _ h2); [by apply keep_shrinks|].
    eapply (keep_trans _ h3); (eapply keep_weaken; [by eapply keep_put|set_solver]).
Qed.
Print Assumptions C48_move_from_member.

(** a list of two nodes with one owner; the same with a second owner of the first node *)
Definition x_next : list (spop nat) := [SoMake 1 [KShared]; SoMake 2 [KShared]; SoAssign (EMem (EVar 0) 0) (EVar 1); SoDrop 1].
Example C48_exact_example :
  let h := run_heap x_next in
  let h' := run_heap (x_next ++ [SoCopy (EVar 0)]) in
  let p := Handle KShared (Some 1%positive) (Some 1%positive) in
  let n := Handle KShared (Some 3%positive) (Some 3%positive) in
  sp_state h /\ h !! 2%positive = Some (SVar p) /\ holds h (1%positive, 0) n /\ owners h 1%positive = 1 /\ watchers h 1%positive = 0 /\
  sp_state h' /\ h' !! 2%positive = Some (SVar p) /\ holds h' (1%positive, 0) n /\ owners h' 1%positive = 2.
Proof.
  split; [apply run_heap_state|]. split; [by vm_compute|]. split; [vm_compute; eauto|]. do 2 (split; [by vm_compute|]).
  split; [apply run_heap_state|]. split; [by vm_compute|]. split; [vm_compute; eauto|]. by vm_compute.
Qed.

(** ** C56: the allocator argument of make_shared_a *)

(** Whatever allocator is passed, the control block comes from a default
    constructed one (and is returned to it: a block is freed through the
    allocator it records). *)
Theorem C56_argument_ignored V (cf : cfg V) w al v ks :
  sp_state (w_heap w) -> w_err w = None ->
  runs (make_shared_a cf al v ks) w (fun x w' =>
    w_err w' = None -> exists c b, h_rc x = Some c /\ w_heap w' !! c = Some (SBlock b) /\ cb_alloc b = c_dflt cf).
Proof.
  intros Hs He. eapply runs_make_shared; [by apply state_inv|done|..].
  - intros c orc Hc h' Hi' _. exists c, (CB (c_dflt cf) 1 0 (Some (v, null <$> ks))). split; [done|]. split; [apply lookup_insert|done].
  - intros orc e nc Hne. simpl. done.
Qed.
Print Assumptions C56_argument_ignored.

Example C56_exact_example :
  runs (let! x := make_shared_a xsD 5 7 [] in
        match h_rc x with Some c => let! b := get_block c in ret (cb_alloc b) | None => fail FNull end) xsw (fun r w' => r = 0).
Proof. compute_run. Qed.
