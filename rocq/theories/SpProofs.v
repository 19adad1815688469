(** * Counting handles: the control blocks' invariant and the release of handles *)
From Verif Require Export SpHistSpec.

Section refs.
  Lemma refs_app k c l l' : refs k c (l ++ l') = refs k c l + refs k c l'.
  Proof. unfold refs. by rewrite filter_app, app_length. Qed.
  Lemma refs_cons k c x l : refs k c (x :: l) = (if decide (refers k c x) then 1 else 0) + refs k c l.
  Proof. unfold refs. rewrite filter_cons. by destruct (decide _). Qed.
  Lemma refs_nil k c : refs k c [] = 0.
  Proof. done. Qed.
  Lemma refs_perm k c l l' : l ≡ₚ l' -> refs k c l = refs k c l'.
  Proof. intros Hp. unfold refs. by rewrite Hp. Qed.
  Lemma refs_pos k c l : 0 < refs k c l <-> exists x, x ∈ l /\ refers k c x.
  Proof.
    unfold refs. split.
    - intros Hp. destruct (filter (refers k c) l) as [|x l'] eqn:E; [simpl in Hp; lia|]. exists x.
      assert (Hx : x ∈ filter (refers k c) l) by (rewrite E; left). apply elem_of_list_filter in Hx. tauto.
    - intros (x & Hx & Hr). assert (Hf : x ∈ filter (refers k c) l) by (by apply elem_of_list_filter).
      destruct (filter (refers k c) l); [by apply elem_of_nil in Hf|]. simpl. lia.
  Qed.
  Lemma refs_null k k' c l : refs k c (null k' :: l) = refs k c l.
  Proof. rewrite refs_cons, decide_False; [done|]. intros [_ ?]. done. Qed.
  Lemma refs_zero k c l : (forall x, x ∈ l -> ~ refers k c x) -> refs k c l = 0.
  Proof.
    intros Hn. destruct (decide (0 < refs k c l)) as [Hp|]; [|lia]. apply refs_pos in Hp as (x & Hx & Hr). by destruct (Hn x Hx).
  Qed.
End refs.

Section proofs.
  Context {V : Type} (cf : cfg V).
  Notation H := (gmap addr (scell V)).
  Notation W := (world (scell V)).
  Implicit Types h : H.
  Implicit Types w : W.
  Implicit Types x y : handle.

  Lemma handles_take h a c : h !! a = Some c -> handles h ≡ₚ cell_handles c ++ handles (delete a h).
  Proof.
    intros Ha. unfold handles. rewrite <-(map_to_list_delete h a c) by done. simpl. done.
  Qed.
  Lemma handles_insert h a c : handles (<[a:=c]> h) ≡ₚ cell_handles c ++ handles (delete a h).
  Proof.
    rewrite (handles_take (<[a:=c]> h) a c) by apply lookup_insert. by rewrite delete_insert_delete.
  Qed.
  Lemma handles_insert_new h a c : h !! a = None -> handles (<[a:=c]> h) ≡ₚ cell_handles c ++ handles h.
  Proof. intros Ha. rewrite handles_insert. by rewrite delete_notin. Qed.
  Lemma elem_of_handles h x : x ∈ handles h <-> exists a c, h !! a = Some c /\ x ∈ cell_handles c.
  Proof.
    unfold handles. rewrite elem_of_list_In, in_concat. setoid_rewrite <-elem_of_list_In. split.
    - intros (l & Hl & Hx). apply elem_of_list_fmap in Hl as (c & -> & Hc).
      apply elem_of_list_fmap in Hc as ([a c'] & -> & Hac). apply elem_of_map_to_list in Hac. by exists a, c'.
    - intros (a & c & Ha & Hx). exists (cell_handles c). split; [|done]. apply elem_of_list_fmap. exists c. split; [done|].
      apply elem_of_list_fmap. exists (a, c). split; [done|]. by apply elem_of_map_to_list.
  Qed.
  Lemma holds_handles h l x : holds h l x -> x ∈ handles h.
  Proof.
    unfold holds. intros Hl. apply elem_of_handles. destruct (h !! l.1) as [[y|b]|] eqn:E; [| |done].
    - destruct Hl as [_ ->]. exists l.1, (SVar x). split; [done|]. simpl. by left.
    - destruct Hl as (v & hs & Hb & Hx). exists l.1, (SBlock b). split; [done|]. simpl. rewrite Hb. by eapply elem_of_list_lookup_2.
  Qed.

  (** ** The invariant *)

  Definition is_block h c : Prop := exists b, h !! c = Some (SBlock b).

  (** [L]: all handles; [D]: blocks whose object is being destroyed *)
  Record inv0 h (L : list handle) (D : list addr) : Prop := {
    i_ptr x : x ∈ L -> h_ptr x = h_rc x;
    i_tgt x c : x ∈ L -> h_rc x = Some c -> is_block h c;
    i_use c b : h !! c = Some (SBlock b) -> cb_use b = Z.of_nat (refs KShared c L);
    i_weak c b : h !! c = Some (SBlock b) -> cb_weak b = Z.of_nat (refs KWeak c L);
    i_val c b : h !! c = Some (SBlock b) -> is_Some (cb_val b) <-> (0 < cb_use b)%Z;
    i_in c b : h !! c = Some (SBlock b) -> c ∈ D -> cb_use b = 0%Z;
    i_out c b : h !! c = Some (SBlock b) -> c ∉ D -> (0 < cb_use b + cb_weak b)%Z;
    i_blk c : c ∈ D -> is_block h c
  }.
  (** [P]: handles held outside memory *)
  Definition inv h P D : Prop := inv0 h (handles h ++ P) D.

  Lemma inv0_perm h L L' D : L ≡ₚ L' -> inv0 h L D -> inv0 h L' D.
  Proof.
    intros Hp [H1 H2 H3 H4 H5 H6 H7 H8]. split.
    - intros x Hx. apply H1. by rewrite Hp.
    - intros x c Hx. apply H2. by rewrite Hp.
    - intros c b Hb. rewrite (H3 c b Hb). by rewrite (refs_perm _ _ _ _ Hp).
    - intros c b Hb. rewrite (H4 c b Hb). by rewrite (refs_perm _ _ _ _ Hp).
    - done.
    - done.
    - done.
    - done.
  Qed.
  Lemma inv_perm h P P' D : P ≡ₚ P' -> inv h P D -> inv h P' D.
  Proof. intros Hp. apply inv0_perm. by rewrite Hp. Qed.
  Lemma inv_null h k P D : inv h P D <-> inv h (null k :: P) D.
  Proof.
    unfold inv. split.
    - intros [H1 H2 H3 H4 H5 H6 H7 H8]. split; try done.
      + intros x Hx. rewrite elem_of_app, elem_of_cons in Hx. destruct Hx as [Hx|[->|Hx]]; [|done|]; apply H1; set_solver.
      + intros x c Hx Hc. rewrite elem_of_app, elem_of_cons in Hx. destruct Hx as [Hx|[->|Hx]]; [|done|]; (eapply H2; [|done]); set_solver.
      + intros c b Hb. by rewrite (H3 c b Hb), !refs_app, refs_null.
      + intros c b Hb. by rewrite (H4 c b Hb), !refs_app, refs_null.
    - intros [H1 H2 H3 H4 H5 H6 H7 H8]. split; try done.
      + intros x Hx. apply H1. set_solver.
      + intros x c Hx. apply H2. set_solver.
      + intros c b Hb. by rewrite (H3 c b Hb), !refs_app, refs_null.
      + intros c b Hb. by rewrite (H4 c b Hb), !refs_app, refs_null.
  Qed.

  Lemma inv_state h : inv h [] [] -> sp_state h.
  Proof.
    unfold inv. rewrite app_nil_r. intros [H1 H2 H3 H4 H5 H6 H7 H8]. split.
    - done.
    - done.
    - intros c b Hb. rewrite (H5 c b Hb), (H3 c b Hb). unfold owners. lia.
    - intros c. split.
      + intros [b Hb]. specialize (H7 c b Hb (not_elem_of_nil _)). rewrite (H3 c b Hb), (H4 c b Hb) in H7. unfold owners, watchers. lia.
      + intros Hp. assert (Hr : exists k, 0 < refs k c (handles h)).
        { unfold owners, watchers in Hp. destruct (decide (0 < refs KShared c (handles h))); [by eexists|]. exists KWeak. lia. }
        destruct Hr as [k Hr]. apply refs_pos in Hr as (x & Hx & _ & Hc). by eapply H2.
    - done.
  Qed.
  Lemma state_inv h : sp_state h -> inv h [] [].
  Proof.
    intros [H1 H2 H3 H4 H5]. unfold inv. rewrite app_nil_r. split.
    - done.
    - intros x c Hx Hc. apply H4. assert (Hp : 0 < refs (h_kind x) c (handles h)) by (apply refs_pos; by exists x).
      unfold owners, watchers. destruct (h_kind x); lia.
    - done.
    - done.
    - intros c b Hb. rewrite (H3 c b Hb), (H1 c b Hb). lia.
    - intros c b Hb Hin. by apply elem_of_nil in Hin.
    - intros c b Hb _. rewrite (H1 c b Hb), (H2 c b Hb). assert (0 < owners h c + watchers h c) by (apply H4; by eexists). lia.
    - intros c Hin. by apply elem_of_nil in Hin.
  Qed.

  (** One block changes: counters are adjusted to [L']. *)
  Lemma inv0_block h L L' D D' c b b' :
    inv0 h L D -> h !! c = Some (SBlock b) ->
    (forall x, x ∈ L' -> h_ptr x = h_rc x /\ forall d, h_rc x = Some d -> is_block h d) ->
    (forall k d, d <> c -> refs k d L' = refs k d L) ->
    (forall d, d <> c -> d ∈ D' <-> d ∈ D) ->
    cb_use b' = Z.of_nat (refs KShared c L') -> cb_weak b' = Z.of_nat (refs KWeak c L') ->
    (is_Some (cb_val b') <-> (0 < cb_use b')%Z) ->
    (c ∈ D' -> cb_use b' = 0%Z) -> (c ∉ D' -> (0 < cb_use b' + cb_weak b')%Z) ->
    inv0 (<[c:=SBlock b']> h) L' D'.
  Proof.
    intros [H1 H2 H3 H4 H5 H6 H7 H8] Hc Hok Hoth HD Hu Hw Hv Hi Ho.
    assert (Hblk : forall d, is_block h d -> is_block (<[c:=SBlock b']> h) d).
    { intros d [bd Hd]. destruct (decide (d = c)) as [->|Hn]; [exists b'; by rewrite lookup_insert|].
      exists bd. by rewrite lookup_insert_ne. }
    assert (Hcase : forall d bd, <[c:=SBlock b']> h !! d = Some (SBlock bd) -> d = c /\ bd = b' \/ d <> c /\ h !! d = Some (SBlock bd)).
    { intros d bd Hd. destruct (decide (d = c)) as [->|Hn].
      - rewrite lookup_insert in Hd. simplify_eq. by left.
      - rewrite lookup_insert_ne in Hd by done. by right. }
    split.
    - intros x Hx. by apply Hok.
    - intros x d Hx Hd. apply Hblk. by eapply Hok.
    - intros d bd Hd. apply Hcase in Hd as [[-> ->]|[Hn Hd]]; [done|]. rewrite Hoth by done. by apply H3.
    - intros d bd Hd. apply Hcase in Hd as [[-> ->]|[Hn Hd]]; [done|]. rewrite Hoth by done. by apply H4.
    - intros d bd Hd. apply Hcase in Hd as [[-> ->]|[Hn Hd]]; [done|]. by eapply H5.
    - intros d bd Hd Hin. apply Hcase in Hd as [[-> ->]|[Hn Hd]]; [auto|]. eapply H6; [done|]. by apply HD.
    - intros d bd Hd Hin. apply Hcase in Hd as [[-> ->]|[Hn Hd]]; [auto|]. eapply H7; [done|]. by rewrite <-HD.
    - intros d Hd. apply Hblk. destruct (decide (d = c)) as [->|Hn]; [by exists b|]. apply H8. by apply HD.
  Qed.
  (** A block without object and handles disappears. *)
  Lemma inv0_delete h L D D' c b : inv0 h L D -> h !! c = Some (SBlock b) -> (forall k, refs k c L = 0) ->
    (forall d, d ∈ D' <-> d ∈ D /\ d <> c) -> inv0 (delete c h) L D'.
  Proof.
    intros [H1 H2 H3 H4 H5 H6 H7 H8] Hc Hz HD.
    assert (Hblk : forall d, d <> c -> is_block h d -> is_block (delete c h) d).
    { intros d Hn [bd Hd]. exists bd. by rewrite lookup_delete_ne. }
    assert (Hcase : forall d bd, delete c h !! d = Some (SBlock bd) -> d <> c /\ h !! d = Some (SBlock bd)).
    { intros d bd Hd. apply lookup_delete_Some in Hd as [? ?]. done. }
    split.
    - done.
    - intros x d Hx Hd. apply Hblk; [|by eapply H2]. intros ->.
      assert (Hp : 0 < refs (h_kind x) c L) by (apply refs_pos; by exists x). rewrite Hz in Hp. lia.
    - intros d bd Hd. apply Hcase in Hd as [Hn Hd]. by apply H3.
    - intros d bd Hd. apply Hcase in Hd as [Hn Hd]. by apply H4.
    - intros d bd Hd. apply Hcase in Hd as [Hn Hd]. by eapply H5.
    - intros d bd Hd Hin. apply Hcase in Hd as [Hn Hd]. apply HD in Hin as [Hin _]. by eapply H6.
    - intros d bd Hd Hin. apply Hcase in Hd as [Hn Hd]. eapply H7; [done|]. intros Hin'. apply Hin. by apply HD.
    - intros d Hin. apply HD in Hin as [Hin Hn]. apply Hblk; [done|]. by apply H8.
  Qed.

  (** ** Locations *)

  Definition put_cell (i : nat) x (c : scell V) : scell V :=
    match c with
    | SVar _ => SVar x
    | SBlock b => SBlock (CB (cb_alloc b) (cb_use b) (cb_weak b) ((fun p => (p.1, <[i:=x]> p.2)) <$> cb_val b))
    end.
  Definition put h (l : loc) x : H := alter (put_cell l.2 x) l.1 h.

  Lemma alter_insert h a f c : h !! a = Some c -> alter f a h = <[a:=f c]> (h : H).
  Proof.
    intros Ha. apply map_eq. intros a'. destruct (decide (a' = a)) as [->|Hn].
    - by rewrite lookup_alter, lookup_insert, Ha.
    - by rewrite lookup_alter_ne, lookup_insert_ne.
  Qed.

  Lemma runs_get_handle w l x (Q : _ -> W -> Prop) : holds (w_heap w) l x -> Q x w -> runs (get_handle l) w Q.
  Proof.
    unfold holds. intros Hl HQ. unfold get_handle. destruct (w_heap w !! l.1) as [[y|b]|] eqn:E; [| |done].
    - rbind. eapply runs_load; [done|]. destruct Hl as [-> ->]. by apply runs_ret.
    - rbind. eapply runs_load; [done|]. destruct Hl as (v & hs & Hb & Hx). rewrite Hb, Hx. by apply runs_ret.
  Qed.
  Lemma runs_put_handle w l x y (Q : _ -> W -> Prop) : holds (w_heap w) l y ->
    Q tt (set_heap (put (w_heap w) l x) w) -> runs (put_handle l x) w Q.
  Proof.
    unfold holds. intros Hl HQ. unfold put_handle. unfold put in HQ. destruct (w_heap w !! l.1) as [[z|b]|] eqn:E; [| |done].
    - rewrite (alter_insert _ _ _ _ E) in HQ. rbind. eapply runs_load; [done|]. destruct Hl as [-> ->]. by eapply runs_store.
    - rewrite (alter_insert _ _ _ _ E) in HQ. rbind. eapply runs_load; [done|]. destruct Hl as (v & hs & Hb & Hx). rewrite Hb, Hx.
      eapply runs_store; [done|]. unfold put_cell in HQ. rewrite Hb in HQ. done.
  Qed.
  Lemma holds_put h l x y : holds h l y -> holds (put h l x) l x.
  Proof.
    unfold holds, put. rewrite lookup_alter. destruct (h !! l.1) as [[z|b]|]; simpl; [| |done].
    - intros [-> _]. done.
    - intros (v & hs & Hb & Hx). exists v, (<[l.2:=x]> hs). rewrite Hb. split; [done|]. apply list_lookup_insert.
      by eapply lookup_lt_Some.
  Qed.
  Lemma holds_put_ne h l x l' y : l <> l' -> holds h l' y -> (exists z, holds h l z) -> holds (put h l x) l' y.
  Proof.
    intros Hn Hl' [z Hl]. unfold holds, put in *. destruct (decide (l.1 = l'.1)) as [He|Hne].
    - rewrite <-He in *. rewrite lookup_alter. destruct (h !! l.1) as [[u|b]|]; simpl; [| |done].
      + destruct Hl as [H1 _], Hl' as [H2 ->]. destruct l, l'. simpl in *. subst. done.
      + destruct Hl' as (v & hs & Hb & Hx). exists v, (<[l.2:=x]> hs). rewrite Hb. split; [done|].
        rewrite list_lookup_insert_ne; [done|]. intros Hq. apply Hn. destruct l, l'. simpl in *. by subst.
    - by rewrite lookup_alter_ne.
  Qed.
  Lemma holds_inj h l x y : holds h l x -> holds h l y -> x = y.
  Proof.
    unfold holds. destruct (h !! l.1) as [[z|b]|]; [| |done].
    - intros [_ ->] [_ ->]. done.
    - intros (v & hs & Hb & Hx) (v' & hs' & Hb' & Hy). congruence.
  Qed.

  Lemma insert_perm (hs : list handle) i x y : hs !! i = Some y -> exists r, hs ≡ₚ y :: r /\ <[i:=x]> hs ≡ₚ x :: r.
  Proof.
    intros Hi. exists (take i hs ++ drop (S i) hs). split.
    - rewrite <-(take_drop_middle hs i y Hi) at 1. by rewrite Permutation_middle.
    - rewrite insert_take_drop by (by eapply lookup_lt_Some). by rewrite Permutation_middle.
  Qed.
  Lemma handles_put h l x y : holds h l y -> exists r, handles h ≡ₚ y :: r /\ handles (put h l x) ≡ₚ x :: r.
  Proof.
    unfold holds, put. intros Hl. destruct (h !! l.1) as [c|] eqn:E; [|done].
    rewrite (alter_insert _ _ _ _ E). assert (Hc : exists r, cell_handles c ≡ₚ y :: r /\ cell_handles (put_cell l.2 x c) ≡ₚ x :: r).
    { destruct c as [z|b]; simpl.
      - destruct Hl as [_ ->]. by exists [].
      - destruct Hl as (v & hs & Hb & Hx). rewrite Hb. simpl. by apply insert_perm. }
    destruct Hc as (r & H1 & H2). exists (r ++ handles (delete l.1 h)). rewrite (handles_take _ _ _ E), handles_insert, H1, H2. done.
  Qed.
  Lemma put_block_inv h l x d b' : put h l x !! d = Some (SBlock b') -> exists b, h !! d = Some (SBlock b) /\
    cb_alloc b' = cb_alloc b /\ cb_use b' = cb_use b /\ cb_weak b' = cb_weak b /\ (is_Some (cb_val b') <-> is_Some (cb_val b)).
  Proof.
    unfold put. destruct (decide (d = l.1)) as [->|Hn].
    - rewrite lookup_alter. destruct (h !! l.1) as [[z|b]|]; simpl; intros ?; simplify_eq. exists b.
      split_and!; [done..|]. simpl. by rewrite fmap_is_Some.
    - rewrite lookup_alter_ne by done. intros Hd. by exists b'.
  Qed.
  Lemma put_is_block h l x d : is_block (put h l x) d <-> is_block h d.
  Proof.
    split.
    - intros [b' Hb]. apply put_block_inv in Hb as (b & Hb & _). by exists b.
    - intros [b Hb]. unfold is_block, put. destruct (decide (d = l.1)) as [->|Hn].
      + rewrite lookup_alter, Hb. simpl. by eexists.
      + rewrite lookup_alter_ne by done. by exists b.
  Qed.
  Lemma inv_put h l x y P D : holds h l y -> inv h (x :: P) D -> inv (put h l x) (y :: P) D.
  Proof.
    intros Hl Hi. destruct (handles_put h l x y Hl) as (r & H1 & H2). unfold inv in *.
    assert (Hp : handles (put h l x) ++ y :: P ≡ₚ handles h ++ x :: P).
    { rewrite H1, H2. simpl. rewrite <-!Permutation_middle. apply perm_swap. }
    eapply inv0_perm; [symmetry; exact Hp|]. destruct Hi as [I1 I2 I3 I4 I5 I6 I7 I8]. split.
    - done.
    - intros z c Hz Hc. apply put_is_block. by eapply I2.
    - intros c b' Hb. apply put_block_inv in Hb as (b & Hb & _ & -> & _). by apply I3.
    - intros c b' Hb. apply put_block_inv in Hb as (b & Hb & _ & _ & -> & _). by apply I4.
    - intros c b' Hb. apply put_block_inv in Hb as (b & Hb & _ & -> & _ & ->). by eapply I5.
    - intros c b' Hb. apply put_block_inv in Hb as (b & Hb & _ & -> & _ & _). by eapply I6.
    - intros c b' Hb. apply put_block_inv in Hb as (b & Hb & _ & -> & -> & _). by eapply I7.
    - intros c Hc. apply put_is_block. by apply I8.
  Qed.

  (** ** Counting up *)

  Definition ref_cell (k : hkind) (c : scell V) : scell V :=
    match c with
    | SVar _ => c
    | SBlock b => SBlock (match k with
                          | KShared => CB (cb_alloc b) (cb_use b + 1) (cb_weak b) (cb_val b)
                          | KWeak => CB (cb_alloc b) (cb_use b) (cb_weak b + 1) (cb_val b)
                          end)
    end.
  Definition add1 h (k : hkind) (r : option addr) : H :=
    match r with Some c => alter (ref_cell k) c h | None => h end.

  Lemma runs_get_block w c b (Q : _ -> W -> Prop) : w_heap w !! c = Some (SBlock b) -> Q b w -> runs (get_block c) w Q.
  Proof. intros Hc HQ. unfold get_block. rbind. eapply runs_load; [done|]. by apply runs_ret. Qed.
  Lemma runs_put_block w c b b' (Q : _ -> W -> Prop) : w_heap w !! c = Some (SBlock b) ->
    Q tt (set_heap (<[c:=SBlock b']> (w_heap w)) w) -> runs (put_block c b') w Q.
  Proof. intros Hc HQ. unfold put_block. by eapply runs_store. Qed.

  Lemma runs_ref_opt w k r (Q : _ -> W -> Prop) :
    (forall c, r = Some c -> exists b, w_heap w !! c = Some (SBlock b) /\ (0 <= cb_use b)%Z /\ (0 <= cb_weak b)%Z) ->
    Q tt (set_heap (add1 (w_heap w) k r) w) ->
    runs (match k with KShared => ref_opt cf r | KWeak => weak_ref_opt cf r end) w Q.
  Proof.
    intros Hr HQ. unfold ref_opt, weak_ref_opt. destruct r as [c|].
    - destruct (Hr c eq_refl) as (b & Hb & Hu & Hw). unfold add1 in HQ. rewrite (alter_insert _ _ _ _ Hb) in HQ.
      destruct k; simpl in HQ.
      + unfold add_ref. rbind. eapply runs_get_block; [done|]. rbind. apply runs_assert; [by apply bool_decide_eq_true|].
        by eapply runs_put_block.
      + unfold weak_add_ref. rbind. eapply runs_get_block; [done|]. rbind. apply runs_assert; [by apply bool_decide_eq_true|].
        by eapply runs_put_block.
    - unfold add1 in HQ. rewrite (surjective_pairing tt) in HQ || idtac. destruct w, k; by apply runs_ret.
  Qed.
  Lemma inv_counts_nonneg h P D c b : inv h P D -> h !! c = Some (SBlock b) -> (0 <= cb_use b)%Z /\ (0 <= cb_weak b)%Z.
  Proof. intros [_ _ H3 H4 _ _ _ _] Hb. rewrite (H3 _ _ Hb), (H4 _ _ Hb). lia. Qed.

  Lemma handles_add1 h k r : handles (add1 h k r) ≡ₚ handles h.
  Proof.
    destruct r as [c|]; [|done]. unfold add1. destruct (h !! c) as [cell|] eqn:E.
    - rewrite (alter_insert _ _ _ _ E), handles_insert, (handles_take _ _ _ E). destruct cell as [z|b]; simpl; [done|]. by destruct k.
    - assert (alter (ref_cell k) c h = h) as ->; [|done]. apply map_eq. intros d. destruct (decide (d = c)) as [->|Hn].
      + by rewrite lookup_alter, E.
      + by rewrite lookup_alter_ne.
  Qed.
  (** A new handle to an object that has an owner (or a weak one to a block in
      use) is counted. *)
  Lemma inv_add1 h k r P D : inv h P D ->
    (forall c, r = Some c -> exists b, h !! c = Some (SBlock b) /\ (k = KShared -> (0 < cb_use b)%Z)) ->
    inv (add1 h k r) (Handle k r r :: P) D.
  Proof.
    intros Hi Hr. destruct r as [c|]; [|by apply inv_null]. destruct (Hr c eq_refl) as (b & Hb & Hu).
    unfold inv in *. eapply inv0_perm; [by rewrite handles_add1|]. unfold add1. rewrite (alter_insert _ _ _ _ Hb).
    pose proof Hi as [I1 I2 I3 I4 I5 I6 I7 I8]. simpl.
    assert (Hn : forall k' d, refs k' d (handles h ++ Handle k (Some c) (Some c) :: P) =
        (if decide (k = k' /\ c = d) then 1 else 0) + refs k' d (handles h ++ P)).
    { intros k' d. rewrite !refs_app, refs_cons.
      destruct (decide (refers k' d (Handle k (Some c) (Some c)))) as [Hq|Hq]; unfold refers in Hq; simpl in Hq.
      - rewrite decide_True by naive_solver. lia.
      - rewrite decide_False by naive_solver. lia. }
    eapply inv0_block; [exact Hi|exact Hb|..].
    - intros x Hx. rewrite elem_of_app, elem_of_cons in Hx. destruct Hx as [Hx|[->|Hx]].
      + split; [apply I1; set_solver|]. intros d Hd. eapply I2; [|done]. set_solver.
      + split; [done|]. intros d Hd. simpl in Hd. simplify_eq. by exists b.
      + split; [apply I1; set_solver|]. intros d Hd. eapply I2; [|done]. set_solver.
    - intros k' d Hd. rewrite Hn, decide_False by naive_solver. done.
    - done.
    - rewrite Hn. pose proof (I3 _ _ Hb). destruct k.
      + rewrite decide_True by done. simpl. lia.
      + rewrite decide_False by naive_solver. done.
    - rewrite Hn. pose proof (I4 _ _ Hb). destruct k.
      + rewrite decide_False by naive_solver. done.
      + rewrite decide_True by done. simpl. lia.
    - pose proof (I5 _ _ Hb) as H5. destruct k; simpl; [|done]. specialize (Hu eq_refl). split; [lia|]. intros _. by apply H5.
    - intros Hin. pose proof (I6 _ _ Hb Hin). destruct k; simpl; [specialize (Hu eq_refl); lia|done].
    - intros Hin. pose proof (I7 _ _ Hb Hin). destruct k; simpl; lia.
  Qed.

  (** Storing a handle and counting it may be done in any order. *)
  Lemma put_add1 h l x k r : put (add1 h k r) l x = add1 (put h l x) k r.
  Proof.
    destruct r as [c|]; [|done]. unfold put, add1. destruct (decide (l.1 = c)) as [->|Hn].
    - rewrite <-!alter_compose. apply map_eq. intros d. destruct (decide (d = c)) as [->|Hn].
      + rewrite !lookup_alter. destruct (h !! c) as [[z|b]|]; simpl; [done| |done]. by destruct k.
      + by rewrite !lookup_alter_ne.
    - by rewrite alter_commute.
  Qed.
  Lemma holds_add1 h k r l x : holds (add1 h k r) l x <-> holds h l x.
  Proof.
    destruct r as [c|]; [|done]. unfold holds, add1. destruct (decide (l.1 = c)) as [->|Hn].
    - rewrite lookup_alter. destruct (h !! c) as [[z|b]|]; simpl; [done| |done]. by destruct k.
    - by rewrite lookup_alter_ne.
  Qed.

  (** ** Releasing *)

  (** What releasing handles does to the rest of the memory: variables stay,
      objects die or stay as they are, no block appears. *)
  Record shrinks h h' : Prop := {
    sh_var a x : h !! a = Some (SVar x) <-> h' !! a = Some (SVar x);
    sh_blk c b' : h' !! c = Some (SBlock b') -> exists b, h !! c = Some (SBlock b) /\ cb_alloc b' = cb_alloc b /\
      (cb_val b' = cb_val b \/ cb_val b' = None)
  }.
  Lemma shrinks_refl h : shrinks h h.
  Proof. split; [done|]. intros c b Hb. exists b. auto. Qed.
  Lemma shrinks_trans h1 h2 h3 : shrinks h1 h2 -> shrinks h2 h3 -> shrinks h1 h3.
  Proof.
    intros [A1 A2] [B1 B2]. split.
    - intros a x. by rewrite A1, B1.
    - intros c b3 H3. apply B2 in H3 as (b2 & H2 & Ha & Hv). apply A2 in H2 as (b1 & H1 & Ha' & Hv').
      exists b1. split; [done|]. split; [congruence|]. destruct Hv as [Hv|Hv], Hv' as [Hv'|Hv']; rewrite ?Hv, ?Hv'; auto.
  Qed.
  Lemma shrinks_insert h c b b' : h !! c = Some (SBlock b) -> cb_alloc b' = cb_alloc b ->
    cb_val b' = cb_val b \/ cb_val b' = None -> shrinks h (<[c:=SBlock b']> h).
  Proof.
    intros Hc Ha Hv. split.
    - intros a x. destruct (decide (a = c)) as [->|Hn].
      + rewrite lookup_insert. split; intros ?; simplify_eq.
      + by rewrite lookup_insert_ne.
    - intros d b'' Hd. destruct (decide (d = c)) as [->|Hn].
      + rewrite lookup_insert in Hd. simplify_eq. by exists b.
      + rewrite lookup_insert_ne in Hd by done. exists b''. auto.
  Qed.
  Lemma shrinks_delete h c b : h !! c = Some (SBlock b) -> shrinks h (delete c h).
  Proof.
    intros Hc. split.
    - intros a x. destruct (decide (a = c)) as [->|Hn].
      + rewrite lookup_delete. split; intros ?; simplify_eq.
      + by rewrite lookup_delete_ne.
    - intros d b'' Hd. apply lookup_delete_Some in Hd as [? Hd]. exists b''. auto.
  Qed.

  Definition cell_alive (p : addr * scell V) : Prop :=
    match p.2 with SBlock b => match cb_val b with Some _ => True | None => False end | SVar _ => False end.
  #[local] Instance cell_alive_dec p : Decision (cell_alive p).
  Proof. unfold cell_alive. destruct p.2 as [z|b]; [apply _|]. destruct (cb_val b); apply _. Defined.
  Definition lives h : gset addr := dom (filter cell_alive h).
  Lemma elem_of_lives h c : c ∈ lives h <-> alive h c.
  Proof.
    unfold lives. rewrite elem_of_dom. unfold is_Some. setoid_rewrite map_filter_lookup_Some. unfold cell_alive, alive. simpl. split.
    - intros (x & Hx & Ha). destruct x as [z|b]; [done|]. exists b. split; [done|]. destruct (cb_val b); [by eexists|done].
    - intros (b & Hb & [u Hu]). exists (SBlock b). by rewrite Hu.
  Qed.
  Lemma lives_size h : size (lives h) <= size h.
  Proof.
    unfold lives. rewrite size_dom. rewrite (map_size_filter cell_alive h) || idtac.
    rewrite <-(size_dom (filter cell_alive h)), <-(size_dom h). apply subseteq_size. apply dom_filter_subseteq.
  Qed.
  Lemma lives_shrinks h h' : shrinks h h' -> lives h' ⊆ lives h.
  Proof.
    intros [_ A2] c. rewrite !elem_of_lives. intros (b' & Hb & Hu). apply A2 in Hb as (b & Hb & _ & [Hv|Hv]).
    - exists b. by rewrite <-Hv.
    - rewrite Hv in Hu. by destruct Hu.
  Qed.

  (** The members of the objects that are alive and outside [R] refer as [E] says. *)
  Definition edges_in h (R : addr -> Prop) (E : hkind -> addr -> addr -> Prop) : Prop :=
    forall k c d, member h k c d -> ~ R c -> E k c d.
  (** The objects in [R] keep an owner in memory, whatever else is released. *)
  Definition kept h (R : addr -> Prop) : Prop :=
    forall h' P D, shrinks h h' -> inv h' P D -> forall c, R c -> 0 < refs KShared c (handles h').
  Definition anyE (E : hkind -> addr -> addr -> Prop) (c d : addr) : Prop := exists k, E k c d.
  (** The blocks in [G] keep a weak_ptr in memory, whatever else is released. *)
  Definition guarded h (G : addr -> Prop) : Prop :=
    forall h' P D, shrinks h h' -> inv h' P D -> forall c, G c -> 0 < refs KWeak c (handles h').
  Definition weak_ok (E : hkind -> addr -> addr -> Prop) (G : addr -> Prop) : Prop := forall c d, E KWeak c d -> rtc (anyE E) d c -> G d.
  Lemma kept_shrinks h h' R : shrinks h h' -> kept h R -> kept h' R.
  Proof. intros Hs Hk h'' P D Hs'. apply Hk. by eapply shrinks_trans. Qed.
  Lemma guarded_shrinks h h' G : shrinks h h' -> guarded h G -> guarded h' G.
  Proof. intros Hs Hk h'' P D Hs'. apply Hk. by eapply shrinks_trans. Qed.
  Lemma edges_shrinks h h' R E : shrinks h h' -> edges_in h R E -> edges_in h' R E.
  Proof.
    intros [_ A2] He k c d (b' & v & hs & x & Hb & Hv & Hx) HR. apply He; [|done]. apply A2 in Hb as (b & Hb & _ & [Hq|Hq]); [|congruence].
    exists b, v, hs, x. split; [done|]. split; [congruence|done].
  Qed.

  Lemma refs_drop1 k c k' d x P h : refers k c x -> refs k' d (handles h ++ x :: P) =
    (if decide (k = k' /\ c = d) then 1 else 0) + refs k' d (handles h ++ P).
  Proof.
    intros [Hk Hc]. rewrite !refs_app, refs_cons.
    destruct (decide (refers k' d x)) as [Hq|Hq]; unfold refers in Hq.
    - rewrite decide_True by naive_solver. lia.
    - rewrite decide_False by naive_solver. lia.
  Qed.
  Lemma inv_tgt_block h P D x c : inv h P D -> x ∈ P -> h_rc x = Some c -> is_block h c.
  Proof. intros [_ I2 _ _ _ _ _ _] Hx Hc. eapply I2; [|done]. set_solver. Qed.
  Lemma inv_ok h P D x : inv h P D -> x ∈ handles h ++ P -> h_ptr x = h_rc x /\ forall d, h_rc x = Some d -> is_block h d.
  Proof. intros [I1 I2 _ _ _ _ _ _] Hx. split; [by apply I1|]. intros d Hd. by eapply I2. Qed.

  Lemma runs_weak_release w c x P D (Q : _ -> W -> Prop) :
    inv (w_heap w) (x :: P) D -> refers KWeak c x -> (c ∈ D -> 0 < refs KWeak c (handles (w_heap w))) ->
    (forall h', inv h' P D -> shrinks (w_heap w) h' -> Q tt (set_heap h' w)) ->
    runs (weak_release cf c) w Q.
  Proof.
    intros Hi Hx HcD HQ. set (h := w_heap w) in *. destruct (inv_tgt_block _ _ _ x c Hi) as [b Hb]; [left|by apply Hx|].
    unfold weak_release. rbind. eapply runs_get_block; [done|]. pose proof Hi as [I1 I2 I3 I4 I5 I6 I7 I8].
    pose proof (refs_drop1 KWeak c KWeak c x P h Hx) as Hr. rewrite decide_True in Hr by done.
    pose proof (refs_drop1 KWeak c KShared c x P h Hx) as Hrs. rewrite decide_False in Hrs by naive_solver.
    pose proof (I4 _ _ Hb) as Hw. rewrite Hr in Hw. pose proof (I3 _ _ Hb) as Hu. rewrite Hrs in Hu.
    rbind. apply runs_assert; [apply bool_decide_eq_true; lia|]. rbind. eapply runs_put_block; [done|].
    set (b' := CB (cb_alloc b) (cb_use b) (cb_weak b - 1) (cb_val b)).
    assert (Hh : handles (<[c:=SBlock b']> h) ≡ₚ handles h) by (by rewrite handles_insert, (handles_take h c _ Hb)).
    assert (Hinv : forall D', (forall d, d <> c -> d ∈ D' <-> d ∈ D) -> (c ∈ D' -> cb_use b = 0%Z) ->
        (c ∉ D' -> (0 < cb_use b + (cb_weak b - 1))%Z) -> inv0 (<[c:=SBlock b']> h) (handles h ++ P) D').
    { intros D' HD Hin Hout. eapply inv0_block; [exact Hi|exact Hb|..].
      - intros y Hy. eapply inv_ok; [exact Hi|]. set_solver.
      - intros k d Hd. rewrite (refs_drop1 KWeak c k d x P h Hx). rewrite decide_False by naive_solver. done.
      - done.
      - simpl. lia.
      - simpl. lia.
      - by apply (I5 _ _ Hb).
      - done.
      - done. }
    destruct (decide _) as [[Hz Hz']|Hnz].
    - assert (HcD' : c ∉ D).
      { intros Hin. pose proof (HcD Hin) as Hpos. rewrite refs_app in Hw. fold h in Hpos. lia. }
      unfold destroy_self. rbind. eapply runs_get_block; [apply lookup_insert|]. simpl.
      assert (Hnone : cb_val b = None).
      { destruct (cb_val b) eqn:Ev; [|done]. assert (0 < cb_use b)%Z by (apply (I5 _ _ Hb); rewrite Ev; by eexists). lia. }
      rewrite Hnone. eapply runs_free_cell; [apply lookup_insert|]. simpl. rewrite delete_insert_delete. apply HQ.
      + unfold inv. rewrite <-(delete_insert_delete h c (SBlock b')).
        assert (Hperm : handles (delete c (<[c:=SBlock b']> h)) ++ P ≡ₚ handles h ++ P).
        { rewrite (handles_take h c _ Hb). simpl. rewrite Hnone. by rewrite delete_insert_delete. }
        eapply inv0_perm; [symmetry; exact Hperm|]. eapply (inv0_delete _ _ (c :: D)).
        * apply Hinv; [set_solver|done|]. intros Hn. set_solver.
        * apply lookup_insert.
        * intros k. destruct k; lia.
        * set_solver.
      + by eapply shrinks_delete.
    - apply runs_ret. apply HQ.
      + unfold inv. eapply inv0_perm; [symmetry; apply Permutation_app_tail; exact Hh|]. apply Hinv; [done|by apply (I6 _ _ Hb)|]. intros Hout. pose proof (I7 _ _ Hb Hout). lia.
      + eapply shrinks_insert; [done|done|by left].
  Qed.

  Definition release_members (fuel : nat) : list handle -> M (scell V) unit :=
    fix members (hs : list handle) : M (scell V) unit :=
      match hs with
      | [] => ret tt
      | h :: hs =>
          do! (match h_rc h with
               | None => ret tt
               | Some d => match h_kind h with KShared => release cf fuel d | KWeak => weak_release cf d end
               end) in
          members hs
      end.

  Lemma runs_release fuel R G E : weak_ok E G -> forall w c x P D (Q : _ -> W -> Prop),
    size (lives (w_heap w)) < fuel -> inv (w_heap w) (x :: P) D -> edges_in (w_heap w) R E -> kept (w_heap w) R ->
    guarded (w_heap w) G -> refers KShared c x ->
    (forall d, d ∈ D -> rtc (anyE E) d c) ->
    (forall h', inv h' P D -> shrinks (w_heap w) h' -> Q tt (set_heap h' w)) ->
    runs (release cf fuel c) w Q.
  Proof.
    intros HE. induction fuel as [|fuel IH]; [lia|]. intros w c x P D Q Hf Hi Hin HR HG Hx HD HQ.
    set (h := w_heap w) in *. destruct (inv_tgt_block _ _ _ x c Hi) as [b Hb]; [left|by apply Hx|].
    pose proof Hi as [I1 I2 I3 I4 I5 I6 I7 I8].
    pose proof (refs_drop1 KShared c KShared c x P h Hx) as Hr. rewrite decide_True in Hr by done.
    pose proof (refs_drop1 KShared c KWeak c x P h Hx) as Hrs. rewrite decide_False in Hrs by naive_solver.
    pose proof (I3 _ _ Hb) as Hu. rewrite Hr in Hu. pose proof (I4 _ _ Hb) as Hw. rewrite Hrs in Hw.
    assert (HcD : c ∉ D) by (intros HcD; pose proof (I6 _ _ Hb HcD); lia).
    assert (Hval : is_Some (cb_val b)) by (apply (I5 _ _ Hb); lia). destruct Hval as [[v hs] Hval].
    assert (Hok : forall y, y ∈ handles h ++ P -> h_ptr y = h_rc y /\ forall d, h_rc y = Some d -> is_block h d).
    { intros y Hy. eapply inv_ok; [exact Hi|]. set_solver. }
    assert (Hoth : forall k d, d <> c -> refs k d (handles h ++ P) = refs k d (handles h ++ x :: P)).
    { intros k d Hd. rewrite (refs_drop1 KShared c k d x P h Hx). rewrite decide_False by naive_solver. done. }
    cbn [release]. rbind. eapply runs_get_block; [done|]. rbind. apply runs_assert; [apply bool_decide_eq_true; lia|].
    rbind. eapply runs_put_block; [done|]. destruct (decide _) as [Hz|Hnz].
    - rbind. rbind. eapply runs_get_block; [apply lookup_insert|]. cbn [cb_val cb_alloc cb_use cb_weak]. rewrite Hval.
      rbind. eapply runs_put_block; [apply lookup_insert|]. simpl. rewrite insert_insert.
      set (b1 := CB (cb_alloc b) (cb_use b - 1) (cb_weak b) None). set (h1 := <[c:=SBlock b1]> h).
      change (runs (release_members fuel hs) (set_heap h1 w) (fun _ w' =>
        runs (let! b0 := get_block c in if decide (cb_weak b0 = 0%Z) then destroy_self c else ret tt) w' Q)).
      assert (Hperm : handles h1 ++ hs ++ P ≡ₚ handles h ++ P).
      { unfold h1. rewrite handles_insert, (handles_take h c _ Hb). simpl. rewrite Hval. rewrite Permutation_app_comm, (Permutation_app_comm hs P), <-(assoc_L (++)), (Permutation_app_comm _ P). done. }
      assert (Hi1 : inv h1 (hs ++ P) (c :: D)).
      { unfold inv. eapply inv0_perm; [symmetry; exact Hperm|]. eapply inv0_block; [exact Hi|exact Hb|exact Hok|exact Hoth|..].
        - set_solver.
        - simpl. lia.
        - simpl. lia.
        - simpl. split; [intros [? ?]; done|lia].
        - simpl. lia.
        - intros Hn. set_solver. }
      assert (Hs1 : shrinks h h1) by (eapply shrinks_insert; [done|done|by right]).
      assert (Hlive : size (lives h1) < fuel).
      { assert (Hsub : lives h1 ⊂ lives h); [|apply subset_size in Hsub; lia]. split; [by apply lives_shrinks|].
        intros Hsub. assert (Hc : c ∈ lives h1) by (apply Hsub; apply elem_of_lives; exists b; by rewrite Hval).
        apply elem_of_lives in Hc as (b' & Hb' & Hs). unfold h1 in Hb'. rewrite lookup_insert in Hb'. simplify_eq. by destruct Hs. }
      assert (Hmem : forall k d y, y ∈ hs -> refers k d y -> E k c d).
      { intros k d y Hy Hyr. apply Hin; [by exists b, v, hs, y|]. intros HRc.
        pose proof (HR h _ _ (shrinks_refl h) Hi c HRc) as Hpos. rewrite refs_app in Hu. lia. }
      (* the members *)
      assert (Hgo : forall h2, inv h2 (hs ++ P) (c :: D) -> shrinks h1 h2 ->
         runs (release_members fuel hs) (set_heap h2 w) (fun _ w' => exists h3, w' = set_heap h3 w /\ inv h3 P (c :: D) /\ shrinks h1 h3)).
      { clear Hi1 Hperm Hval. induction hs as [|y hs IHm]; intros h2 Hi2 Hs2.
        { simpl. apply runs_ret. by exists h2. }
        simpl. rbind. assert (Hrest : forall h3, inv h3 (hs ++ P) (c :: D) -> shrinks h1 h3 ->
           runs (release_members fuel hs) (set_heap h3 w) (fun _ w' => exists h3, w' = set_heap h3 w /\ inv h3 P (c :: D) /\ shrinks h1 h3)).
        { apply IHm. intros k d z Hz'. apply Hmem. by right. }
        destruct (h_rc y) as [d|] eqn:Hyd.
        - destruct (h_kind y) eqn:Hyk.
          + assert (Hyr : refers KShared d y) by done. pose proof (Hmem KShared d y ltac:(left) Hyr) as Hcd.
            eapply IH.
            * simpl. eapply Nat.le_lt_trans; [|exact Hlive]. apply subseteq_size. by apply lives_shrinks.
            * exact Hi2.
            * eapply edges_shrinks; [exact Hs2|]. by eapply edges_shrinks.
            * eapply kept_shrinks; [exact Hs2|]. by eapply kept_shrinks.
            * eapply guarded_shrinks; [exact Hs2|]. by eapply guarded_shrinks.
            * exact Hyr.
            * intros d' Hd'. apply elem_of_cons in Hd' as [->|Hd'].
              -- apply rtc_once. by exists KShared.
              -- eapply rtc_r; [by apply HD|]. by exists KShared.
            * intros h3 Hi3 Hs3. simpl. apply Hrest; [done|]. by eapply shrinks_trans.
          + assert (Hyr : refers KWeak d y) by done. pose proof (Hmem KWeak d y ltac:(left) Hyr) as Hcd.
            eapply runs_weak_release; [exact Hi2|exact Hyr|..].
            * intros Hd. eapply HG; [by eapply shrinks_trans|exact Hi2|]. apply (HE c d Hcd).
              apply elem_of_cons in Hd as [->|Hd]; [done|]. by apply HD.
            * intros h3 Hi3 Hs3. simpl. apply Hrest; [done|]. by eapply shrinks_trans.
        - apply runs_ret. apply Hrest; [|done].
          assert (Hp : h_ptr y = None) by (rewrite <-Hyd; eapply inv_ok; [exact Hi2|set_solver]).
          apply (inv_null _ (h_kind y)). destruct y; simpl in *; subst. exact Hi2. }
      eapply runs_mono; [apply Hgo; [exact Hi1|apply shrinks_refl]|]. intros [] w' (h3 & -> & Hi3 & Hs3). clear Hgo.
      pose proof Hi3 as [J1 J2 J3 J4 J5 J6 J7 J8]. destruct (J8 c ltac:(left)) as [b3 Hb3].
      assert (Hs : shrinks h h3) by (by eapply shrinks_trans).
      rbind. eapply runs_get_block; [exact Hb3|]. pose proof (J6 _ _ Hb3 ltac:(left)) as Hu3.
      assert (Hnone : cb_val b3 = None).
      { destruct (cb_val b3) eqn:Ev; [|done]. assert (0 < cb_use b3)%Z by (apply (J5 _ _ Hb3); rewrite Ev; by eexists). lia. }
      destruct (decide _) as [Hw3|Hw3].
      + unfold destroy_self. rbind. eapply runs_get_block; [exact Hb3|]. rewrite Hnone. eapply runs_free_cell; [exact Hb3|].
        simpl. apply HQ.
        * unfold inv. assert (Hperm' : handles (delete c h3) ++ P ≡ₚ handles h3 ++ P).
          { rewrite (handles_take h3 c _ Hb3). simpl. by rewrite Hnone. }
          eapply inv0_perm; [symmetry; exact Hperm'|]. eapply (inv0_delete _ _ (c :: D)); [exact Hi3|exact Hb3|..].
          -- pose proof (J3 _ _ Hb3). pose proof (J4 _ _ Hb3). intros []; lia.
          -- set_solver.
        * eapply shrinks_trans; [exact Hs|]. by eapply shrinks_delete.
      + apply runs_ret. apply HQ; [|exact Hs]. destruct Hi3 as [K1 K2 K3 K4 K5 K6 K7 K8]. split; try done.
        * intros d bd Hd HdD. eapply K6; [done|]. by right.
        * intros d bd Hd HdD. destruct (decide (d = c)) as [->|Hn].
          -- assert (bd = b3) as -> by congruence. pose proof (J4 _ _ Hb3). lia.
          -- eapply K7; [done|]. set_solver.
        * intros d Hd. apply K8. by right.
    - apply runs_ret. simpl. apply HQ.
      + set (b' := CB (cb_alloc b) (cb_use b - 1) (cb_weak b) (cb_val b)).
        assert (Hh : handles (<[c:=SBlock b']> h) ≡ₚ handles h) by (by rewrite handles_insert, (handles_take h c _ Hb)).
        unfold inv. eapply inv0_perm; [symmetry; apply Permutation_app_tail; exact Hh|].
        eapply inv0_block; [exact Hi|exact Hb|exact Hok|exact Hoth|..]; simpl.
        * done.
        * lia.
        * lia.
        * rewrite Hval. split; [lia|by eexists].
        * done.
        * lia.
      + eapply shrinks_insert; [done|done|by left].
  Qed.

  (** Destroying a handle in a state without objects under destruction. *)
  Lemma runs_destroy_handle R G E w x P (Q : _ -> W -> Prop) :
    inv (w_heap w) (x :: P) [] -> weak_ok E G -> edges_in (w_heap w) R E -> kept (w_heap w) R -> guarded (w_heap w) G ->
    (forall h', inv h' P [] -> shrinks (w_heap w) h' -> Q tt (set_heap h' w)) ->
    runs (destroy_handle cf x) w Q.
  Proof.
    intros Hi HE Hin HR HG HQ. unfold destroy_handle. destruct (h_rc x) as [c|] eqn:Hx.
    - destruct (h_kind x) eqn:Hk.
      + unfold release_top. rbind. apply runs_get_heap.
        eapply (runs_release _ R G E HE); [|exact Hi|exact Hin|exact HR|exact HG|by split|by intros d ?%elem_of_nil|exact HQ].
        pose proof (lives_size (w_heap w)). lia.
      + eapply runs_weak_release; [exact Hi|done|by intros ?%elem_of_nil|exact HQ].
    - apply runs_ret. assert (Hp : h_ptr x = None) by (rewrite <-Hx; eapply inv_ok; [exact Hi|set_solver]).
      replace w with (set_heap (w_heap w) w) by (by destruct w). apply HQ; [|apply shrinks_refl].
      apply (inv_null _ (h_kind x)). destruct x; simpl in *; subst. exact Hi.
  Qed.
End proofs.
