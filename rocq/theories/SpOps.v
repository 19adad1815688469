(** * What each operation on handles does *)
From Verif Require Export SpFree.

Section ops.
  Context {V : Type} (cf : cfg V).
  Notation H := (gmap addr (scell V)).
  Notation W := (world (scell V)).
  Implicit Types h : H.
  Implicit Types w : W.
  Implicit Types x y : handle.

  (** ** Reachability from variables *)

  (** Reachable from a variable through shared_ptr members, without passing
      through the members of [X]. *)
  Inductive reach h (X : option addr) : addr -> Prop :=
  | reach_var a x c : h !! a = Some (SVar x) -> refers KShared c x -> reach h X c
  | reach_mem d c : reach h X d -> X <> Some d -> member h KShared d c -> reach h X c.
  Definition rooted h : addr -> Prop := reach h None.

  Lemma reach_avoid h X c : rooted h c -> reach h (Some X) c \/ reach h (Some X) X.
  Proof.
    induction 1 as [a x c Ha Hx|d c Hd IH _ Hm]; [left; by econstructor|].
    destruct IH as [IH|IH]; [|by right]. destruct (decide (d = X)) as [->|Hn]; [by right|].
    left. eapply reach_mem; [exact IH|congruence|done].
  Qed.
  Lemma reach_self h X : rooted h X -> reach h (Some X) X.
  Proof. intros Hr. by destruct (reach_avoid h X X Hr). Qed.

  Lemma member_handle h k c d : member h k c d -> exists x, x ∈ handles h /\ refers k d x.
  Proof.
    intros (b & v & hs & x & Hb & Hv & Hx & Hr). exists x. split; [|done]. apply elem_of_handles. exists c, (SBlock b).
    split; [done|]. simpl. by rewrite Hv.
  Qed.
  Lemma owned_alive h P D c : inv h P D -> 0 < refs KShared c (handles h ++ P) ->
    exists b v hs, h !! c = Some (SBlock b) /\ cb_val b = Some (v, hs) /\ (0 < cb_use b)%Z.
  Proof.
    intros [I1 I2 I3 I4 I5 I6 I7 I8] Hp. pose proof Hp as Hp'. apply refs_pos in Hp' as (x & Hx & _ & Hc).
    destruct (I2 x c Hx Hc) as [b Hb]. pose proof (I3 _ _ Hb). assert (Hs : is_Some (cb_val b)) by (apply (I5 _ _ Hb); lia).
    destruct Hs as [[v hs] Hs]. exists b, v, hs. split; [done|]. split; [done|]. lia.
  Qed.

  Lemma kept_rooted h : kept h (rooted h).
  Proof.
    intros h' P D Hs Hi c. induction 1 as [a x c Ha Hx|d c Hd IH _ Hm].
    - apply refs_pos. exists x. split; [|done]. apply elem_of_handles. exists a, (SVar x). split; [by apply (sh_var _ _ Hs)|]. simpl. by left.
    - destruct (owned_alive h' P D d Hi) as (b' & v & hs & Hb & Hv & _); [rewrite refs_app; lia|].
      destruct (sh_blk _ _ Hs _ _ Hb) as (b & Hb0 & _ & [Hq|Hq]); [|congruence].
      destruct Hm as (b0 & v0 & hs0 & x & Hb0' & Hv0 & Hx & Hr). assert (b0 = b) as -> by congruence.
      apply refs_pos. exists x. split; [|done]. apply elem_of_handles. exists d, (SBlock b'). split; [done|]. simpl.
      rewrite Hq, Hv0. done.
  Qed.

  (** A location in a variable or in an object reachable from one. *)
  Definition lok h (l : loc) : Prop := is_block h l.1 -> rooted h l.1.

  Lemma holds_survive h h' P D l x : lok h l -> holds h l x -> shrinks h h' -> inv h' P D -> holds h' l x.
  Proof.
    intros Hl Hx Hs Hi. unfold holds in *. destruct (h !! l.1) as [[y|b]|] eqn:E; [| |done].
    - apply (sh_var _ _ Hs) in E. by rewrite E.
    - assert (Hr : rooted h l.1) by (apply Hl; by exists b). pose proof (kept_rooted h h' P D Hs Hi l.1 Hr) as Hp.
      destruct (owned_alive h' P D l.1 Hi) as (b' & v & hs & Hb & Hv & _); [rewrite refs_app; lia|].
      rewrite Hb. destruct (sh_blk _ _ Hs _ _ Hb) as (b0 & Hb0 & _ & [Hq|Hq]); [|congruence].
      assert (b0 = b) as -> by congruence. by rewrite Hq.
  Qed.

  (** ** Frames *)

  Lemma keep_refl h ls : others_keep h h ls.
  Proof. split; auto. Qed.
  Lemma keep_trans h1 h2 h3 ls : others_keep h1 h2 ls -> others_keep h2 h3 ls -> others_keep h1 h3 ls.
  Proof. intros [A1 A2] [B1 B2]. split; eauto. Qed.
  Lemma keep_weaken h h' ls ls' : others_keep h h' ls -> ls ⊆ ls' -> others_keep h h' ls'.
  Proof. intros [A1 A2] Hs. split; [intros l x Hl|intros a x Ha]; [apply A1|apply A2]; set_solver. Qed.
  Lemma keep_shrinks h h' ls : shrinks h h' -> others_keep h h' ls.
  Proof.
    intros [A1 A2]. split.
    - intros l x _ Hl. unfold holds in *. destruct (h' !! l.1) as [[y|b']|] eqn:E; [| |done].
      + apply A1 in E. by rewrite E.
      + apply A2 in E as (b & Hb & _ & [Hq|Hq]); [by rewrite Hb, <-Hq|]. destruct Hl as (v & hs & Hv & _). congruence.
    - intros a x _ Ha. by apply A1.
  Qed.
  Lemma keep_put h l x y : holds h l y -> others_keep h (put h l x) [l].
  Proof.
    intros Hl. split.
    - intros l' z Hn Hz. assert (Hne : l <> l') by set_solver. clear Hn. unfold holds, put in *.
      destruct (decide (l.1 = l'.1)) as [He|Hd]; [|by rewrite lookup_alter_ne in Hz].
      rewrite <-He in *. rewrite lookup_alter in Hz. destruct (h !! l.1) as [[u|b]|]; simpl in Hz; [| |done].
      + destruct Hl as [H1 _], Hz as [H2 _]. destruct l, l'; simpl in *; by subst.
      + destruct Hz as (v & hs & Hv & Hz). destruct (cb_val b) as [[v0 hs0]|]; simplify_eq/=. exists v, hs0. split; [done|].
        rewrite list_lookup_insert_ne in Hz; [done|]. intros Hq. apply Hne. destruct l, l'; simpl in *; by subst.
    - intros a z Hn Ha. assert (Hne : l <> (a, 0)) by set_solver. clear Hn. unfold put.
      destruct (decide (l.1 = a)) as [<-|Hd]; [|by rewrite lookup_alter_ne]. exfalso. unfold holds in Hl. rewrite Ha in Hl.
      destruct Hl as [H1 _]. apply Hne. destruct l; simpl in *; by subst.
  Qed.
  Lemma keep_add1 h k r ls : others_keep h (add1 h k r) ls.
  Proof.
    split; [intros l x _; apply holds_add1|]. intros a x _ Ha. unfold add1. destruct r as [c|]; [|done].
    destruct (decide (c = a)) as [->|Hn]; [by rewrite lookup_alter, Ha|by rewrite lookup_alter_ne].
  Qed.

  Lemma object_kept_refl (o : option (V * list handle)) : object_kept o o.
  Proof. destruct o as [[v hs]|]; done. Qed.
  Lemma object_kept_trans (o1 o2 o3 : option (V * list handle)) : object_kept o1 o2 -> object_kept o2 o3 -> object_kept o1 o3.
  Proof.
    destruct o1 as [[v1 hs1]|], o2 as [[v2 hs2]|], o3 as [[v3 hs3]|]; simpl; try done. intros [-> Ha] [-> Hb]. split; [done|congruence].
  Qed.
  Lemma evolves_refl h : evolves h h.
  Proof. split; [done|]. intros c b Hb. exists b. split; [done|]. split; [done|]. apply object_kept_refl. Qed.
  Lemma evolves_trans h1 h2 h3 : evolves h1 h2 -> evolves h2 h3 -> evolves h1 h3.
  Proof.
    intros [Av A] [Bv B]. split; [intros a; by rewrite Av, Bv|].
    intros c b3 H3. apply B in H3 as (b2 & H2 & Ha & Ho). apply A in H2 as (b1 & H1 & Ha' & Ho'). exists b1.
    split; [done|]. split; [congruence|]. by eapply object_kept_trans.
  Qed.
  Lemma evolves_shrinks h h' : shrinks h h' -> evolves h h'.
  Proof.
    intros [A1 A2]. split; [intros a; split; intros [x Hx]; exists x; by apply A1|].
    intros c b' Hb. apply A2 in Hb as (b & Hb & Ha & [Hq|Hq]); exists b; (split; [done|]); (split; [done|]); rewrite Hq; [apply object_kept_refl|done].
  Qed.
  Lemma evolves_put h l x y : holds h l y -> h_kind x = h_kind y -> evolves h (put h l x).
  Proof.
    intros Hl Hk. split.
    - intros a. unfold is_var, put. destruct (decide (a = l.1)) as [->|Hn]; [|by rewrite lookup_alter_ne].
      rewrite lookup_alter. destruct (h !! l.1) as [[z|b]|]; simpl; [|split; intros [? ?]; simplify_eq|done]. split; intros _; by eexists.
    - intros c b' Hb. unfold put in Hb. destruct (decide (c = l.1)) as [->|Hn].
      + rewrite lookup_alter in Hb. unfold holds in Hl. destruct (h !! l.1) as [[z|b]|]; simplify_eq/=. exists b. split; [done|]. split; [done|].
        destruct Hl as (v & hs & Hv & Hx). simpl. rewrite Hv. simpl. split; [done|]. rewrite list_fmap_insert. apply list_insert_id.
        rewrite list_lookup_fmap, Hx. simpl. by rewrite Hk.
      + rewrite lookup_alter_ne in Hb by done. exists b'. split; [done|]. split; [done|]. apply object_kept_refl.
  Qed.
  Lemma evolves_add1 h k r : evolves h (add1 h k r).
  Proof.
    destruct r as [d|]; [|apply evolves_refl]. unfold add1. split.
    - intros a. unfold is_var. destruct (decide (a = d)) as [->|Hn]; [|by rewrite lookup_alter_ne].
      rewrite lookup_alter. destruct (h !! d) as [[z|b]|]; simpl; [done| |done]. split; intros [? ?]; simplify_eq.
    - intros c b' Hb. destruct (decide (c = d)) as [->|Hn].
      + rewrite lookup_alter in Hb. destruct (h !! d) as [[z|b]|]; simplify_eq/=. exists b. split; [done|].
        destruct k; simpl; split; try done; apply object_kept_refl.
      + rewrite lookup_alter_ne in Hb by done. exists b'. split; [done|]. split; [done|]. apply object_kept_refl.
  Qed.

  (** ** The members after a handle has been replaced *)

  Lemma member_add1 h j r k c d : member (add1 h j r) k c d <-> member h k c d.
  Proof.
    unfold add1. destruct r as [e|]; [|done]. unfold member. destruct (decide (c = e)) as [->|Hn].
    - rewrite lookup_alter. destruct (h !! e) as [[z|b]|]; simpl.
      + split; intros (b0 & v & hs & x & Hb & _); simplify_eq.
      + split; intros (b0 & v & hs & x & Hb & Hv & Hx); simplify_eq; destruct j; simpl in *; by eexists _, v, hs, x.
      + split; intros (b0 & v & hs & x & Hb & _); simplify_eq.
    - by rewrite lookup_alter_ne.
  Qed.
  Lemma reach_add1 h j r X c : reach h X c -> reach (add1 h j r) X c.
  Proof.
    induction 1 as [a x c Ha Hx|d c Hd IH HX Hm].
    - eapply reach_var; [|exact Hx]. destruct (keep_add1 h j r []) as [_ A2]. apply A2; [|done]. set_solver.
    - eapply reach_mem; [exact IH|done|]. by apply member_add1.
  Qed.
  Lemma member_put_ne h l x k c d : c <> l.1 -> member (put h l x) k c d <-> member h k c d.
  Proof. intros Hn. unfold member, put. by rewrite lookup_alter_ne. Qed.
  Lemma reach_put h l x c : is_block h l.1 -> reach h (Some l.1) c -> rooted (put h l x) c.
  Proof.
    intros [b Hb]. induction 1 as [a y c Ha Hy|d c Hd IH HX Hm].
    - eapply reach_var; [|exact Hy]. unfold put. rewrite lookup_alter_ne; [done|]. intros Hq. rewrite Hq in Hb. congruence.
    - eapply reach_mem; [exact IH|done|]. apply member_put_ne; [|done]. congruence.
  Qed.
  Lemma lok_put h l x : lok h l -> is_block h l.1 -> rooted (put h l x) l.1.
  Proof. intros Hl Hb. apply reach_put; [done|]. apply reach_self. by apply Hl. Qed.

  (** ** What may be destroyed with the handle at [l] *)

  Lemma holds_member h k d j c x : is_block h d -> holds h (d, j) x -> refers k c x -> member h k d c.
  Proof.
    intros [b Hb] Hx Hr. unfold holds in Hx. simpl in Hx. rewrite Hb in Hx. destruct Hx as (v & hs & Hv & Hx).
    exists b, v, hs, x. split; [done|]. split; [done|]. split; [by eapply elem_of_list_lookup_2|done].
  Qed.
  Lemma member_holds h k d c : member h k d c -> exists j x, is_block h d /\ holds h (d, j) x /\ refers k c x.
  Proof.
    intros (b & v & hs & x & Hb & Hv & Hx & Hr). apply elem_of_list_lookup in Hx as [j Hj]. exists j, x.
    split; [by exists b|]. split; [|done]. unfold holds. simpl. rewrite Hb. by exists v, hs.
  Qed.
  (** Memory [h1] is [h] after the handle at [l] was taken out. *)
  Record cut h (l : loc) h1 : Prop := {
    cut_root c : reachable_without h l c -> rooted h1 c;
    cut_edge k c d : member h1 k c d -> doomed h l c -> member h k c d;
    cut_keep l' x : l' <> l -> holds h l' x -> holds h1 l' x;
    cut_block c : is_block h1 c -> is_block h c
  }.
  Lemma reach_without h l c : is_block h l.1 -> reach h (Some l.1) c -> reachable_without h l c.
  Proof.
    intros [b Hb]. induction 1 as [a x c Ha Hx|d c Hd IH HX Hm].
    - eapply rw_var; [|exact Ha|exact Hx]. intros Hq. rewrite <-Hq in Hb. simpl in Hb. congruence.
    - apply member_holds in Hm as (j & x & Hd' & Hj & Hr). eapply rw_member; [exact IH|exact Hd'| |exact Hj|exact Hr].
      intros Hq. apply HX. by rewrite <-Hq.
  Qed.
  Lemma cut_put h l y j r z : lok h l -> holds h l z -> cut h l (add1 (put h l y) j r).
  Proof.
    intros Hl Hz. assert (Hkeep : forall l' x, l' <> l -> holds h l' x -> holds (add1 (put h l y) j r) l' x).
    { intros l' x Hn Hx. apply holds_add1. eapply holds_put_ne; [done|done|by exists z]. }
    assert (Hblk : forall c, is_block (add1 (put h l y) j r) c <-> is_block h c).
    { intros c. rewrite <-(put_is_block h l y c). unfold is_block. split.
      - intros [b Hb]. destruct (proj2 (evolves_add1 (put h l y) j r) _ _ Hb) as (b0 & Hb0 & _). by exists b0.
      - intros [b Hb]. destruct r as [e|]; [|by exists b]. unfold add1. destruct (decide (e = c)) as [->|Hn].
        + rewrite lookup_alter, Hb. simpl. by eexists.
        + rewrite lookup_alter_ne by done. by exists b. }
    split.
    - induction 1 as [a x c Hn Ha Hx|d i x c Hd IH Hb Hn Hx Hr].
      + eapply reach_var; [|exact Hx]. assert (Ha1 : holds (add1 (put h l y) j r) (a, 0) x).
        { apply Hkeep; [done|]. unfold holds. simpl. by rewrite Ha. }
        unfold holds in Ha1. simpl in Ha1. destruct (add1 (put h l y) j r !! a) as [[u|b]|] eqn:E; [| |done].
        * by destruct Ha1 as [_ ->].
        * assert (Hb : is_block h a) by (apply Hblk; by exists b). destruct Hb as [b0 Hb]. congruence.
      + eapply reach_mem; [exact IH|done|]. eapply holds_member; [by apply Hblk|by apply Hkeep|done].
    - intros k c d Hm Hno. rewrite member_add1 in Hm. destruct (decide (c = l.1)) as [->|Hn].
      + destruct Hno. assert (Hb : is_block h l.1).
        { destruct Hm as (b & v & hs & x & Hb & _). apply (put_is_block h l y). by exists b. }
        apply reach_without; [done|]. apply reach_self. by apply Hl.
      + by rewrite member_put_ne in Hm.
    - exact Hkeep.
    - intros c. apply Hblk.
  Qed.
  Lemma cut_put' h l y z : lok h l -> holds h l z -> cut h l (put h l y).
  Proof. intros Hl Hz. exact (cut_put h l y KShared None z Hl Hz). Qed.
  Lemma cut_delete h a x : h !! a = Some (SVar x) -> cut h (a, 0) (delete a h).
  Proof.
    intros Ha. assert (Hkeep : forall l' y, l' <> (a, 0) -> holds h l' y -> holds (delete a h) l' y).
    { intros [a' i] y Hn Hy. unfold holds in *. simpl in *. destruct (decide (a' = a)) as [->|Hna].
      - rewrite Ha in Hy. destruct Hy as [-> _]. done.
      - by rewrite lookup_delete_ne. }
    assert (Hblk : forall c, is_block h c -> is_block (delete a h) c).
    { intros c [b Hb]. exists b. rewrite lookup_delete_ne; [done|]. congruence. }
    split.
    - induction 1 as [a' y c Hn Ha' Hy|d i y c Hd IH Hb Hn Hy Hr].
      + eapply reach_var; [|exact Hy]. rewrite lookup_delete_ne; [exact Ha'|]. by intros ->.
      + eapply reach_mem; [exact IH|done|]. eapply holds_member; [by apply Hblk|by apply Hkeep|done].
    - intros k c d (b & v & hs & z & Hb & Hr) _. apply lookup_delete_Some in Hb as [_ Hb]. by exists b, v, hs, z.
    - exact Hkeep.
    - intros c [b Hb]. apply lookup_delete_Some in Hb as [_ Hb]. by exists b.
  Qed.

  (** Destroying the handle that was at [l]. *)
  Lemma ends_destroy_cut bl h l w x P (Q : _ -> W -> Prop) : inv (w_heap w) (x :: P) [] -> cut h l (w_heap w) ->
    (bl = false -> h_kind x = KShared -> release_safe h l) ->
    (forall h', inv h' P [] -> shrinks (w_heap w) h' -> Q tt (set_heap h' w)) ->
    ends bl (destroy_handle cf x) w Q.
  Proof.
    intros Hi [C1 C2 C3 C4] Hsafe HQ. destruct bl; [by eapply ends_destroy; [exact Hi|auto]|]. specialize (Hsafe eq_refl).
    apply runs_ends. destruct (h_kind x) eqn:Hk.
    2: { unfold destroy_handle. rewrite Hk. destruct (h_rc x) as [c|] eqn:Hx.
      - eapply runs_weak_release; [exact Hi|done|by intros ?%elem_of_nil|exact HQ].
      - apply runs_ret. enough (HQw : Q tt (set_heap (w_heap w) w)) by (by destruct w). apply HQ; [|apply shrinks_refl].
        assert (Hp : h_ptr x = None) by (rewrite <-Hx; eapply inv_ok; [exact Hi|set_solver]).
        apply (inv_null _ (h_kind x)). destruct x; simpl in *; subst. exact Hi. }
    specialize (Hsafe eq_refl). eapply (runs_destroy_handle cf (reachable_without h l) (watched_without h l) (fun k c d => doomed h l c /\ member h k c d)).
    - exact Hi.
    - intros c d [Hd Hm] Hr. apply (Hsafe c d); [done|done|]. eapply rtc_subrel; [|exact Hr]. intros a b (k & Ha & Hak). split; [done|by exists k].
    - intros k c d Hm Hn. split; [done|]. by apply C2.
    - intros h' P' D' Hs Hi' c Hc. eapply kept_rooted; [exact Hs|exact Hi'|]. by apply C1.
    - intros h' P' D' Hs Hi' d (l' & y & Hn & Hy & Hr & Hl). apply refs_pos. exists y. split; [|done]. eapply holds_handles.
      eapply (holds_survive (w_heap w)); [|by apply C3|exact Hs|exact Hi']. intros Hb. apply C1. apply Hl. by apply C4.
    - exact HQ.
  Qed.
  Lemma no_weak_cycle_safe h l : no_weak_cycle h -> release_safe h l.
  Proof.
    intros Hc c d _ Hm Hr. destruct (Hc c d Hm). eapply rtc_subrel; [|exact Hr]. by intros a b [_ ?].
  Qed.

  (** ** Variables *)

  Lemma inv_newvar h a x P D : h !! a = None -> inv h (x :: P) D -> inv (<[a:=SVar x]> h) P D.
  Proof.
    intros Ha [I1 I2 I3 I4 I5 I6 I7 I8].
    assert (Hp : handles (<[a:=SVar x]> h) ++ P ≡ₚ handles h ++ x :: P).
    { rewrite handles_insert_new by done. simpl. by rewrite Permutation_middle. }
    unfold inv. eapply inv0_perm; [symmetry; exact Hp|].
    assert (Hcase : forall c b, <[a:=SVar x]> h !! c = Some (SBlock b) -> h !! c = Some (SBlock b)).
    { intros c b Hb. destruct (decide (c = a)) as [->|Hn]; [rewrite lookup_insert in Hb; simplify_eq|by rewrite lookup_insert_ne in Hb]. }
    assert (Hblk : forall c, is_block h c -> is_block (<[a:=SVar x]> h) c).
    { intros c [b Hb]. exists b. rewrite lookup_insert_ne; [done|]. congruence. }
    split; eauto.
  Qed.
  Lemma inv_delvar h a x P D : h !! a = Some (SVar x) -> inv h P D -> inv (delete a h) (x :: P) D.
  Proof.
    intros Ha [I1 I2 I3 I4 I5 I6 I7 I8].
    assert (Hp : handles (delete a h) ++ x :: P ≡ₚ handles h ++ P).
    { rewrite (handles_take h a _ Ha). simpl. by rewrite Permutation_middle. }
    unfold inv. eapply inv0_perm; [symmetry; exact Hp|].
    assert (Hcase : forall c b, delete a h !! c = Some (SBlock b) -> h !! c = Some (SBlock b)).
    { intros c b Hb. by apply lookup_delete_Some in Hb as [? Hb]. }
    assert (Hblk : forall c, is_block h c -> is_block (delete a h) c).
    { intros c [b Hb]. exists b. rewrite lookup_delete_ne; [done|]. congruence. }
    split; eauto.
  Qed.

  (** ** More about locations *)

  Lemma put_put h l x y : put (put h l x) l y = put h l y.
  Proof.
    unfold put. rewrite <-alter_compose. apply map_eq. intros a. destruct (decide (a = l.1)) as [->|Hn].
    - rewrite !lookup_alter. destruct (h !! l.1) as [[z|b]|]; simpl; [done| |done]. do 3 f_equal.
      destruct (cb_val b) as [[v hs]|]; simpl; [|done]. by rewrite list_insert_insert.
    - by rewrite !lookup_alter_ne.
  Qed.
  Lemma put_comm h l l' x y : l <> l' -> (exists z, holds h l z) -> (exists z, holds h l' z) -> put (put h l x) l' y = put (put h l' y) l x.
  Proof.
    intros Hn [z Hz] [z' Hz']. unfold put. destruct (decide (l.1 = l'.1)) as [He|Hd]; [|by rewrite alter_commute].
    unfold holds in Hz, Hz'. rewrite <-He in *. rewrite <-!alter_compose. apply map_eq. intros a. destruct (decide (a = l.1)) as [->|Hn'].
    - rewrite !lookup_alter. destruct (h !! l.1) as [[u|b]|]; simpl; [| |done].
      + destruct Hz as [H1 _], Hz' as [H2 _]. destruct l, l'; simpl in *; by subst.
      + do 3 f_equal. destruct (cb_val b) as [[v hs]|]; simpl; [|done]. rewrite list_insert_commute; [done|].
        intros Hq. apply Hn. destruct l, l'; simpl in *; by subst.
    - by rewrite !lookup_alter_ne.
  Qed.
  Lemma holds_inv_block h l x c : inv h [] [] -> holds h l x -> h_rc x = Some c ->
    exists b, h !! c = Some (SBlock b) /\ (0 <= cb_use b)%Z /\ (0 <= cb_weak b)%Z /\ (h_kind x = KShared -> (0 < cb_use b)%Z).
  Proof.
    intros Hi Hx Hc. pose proof Hi as [I1 I2 I3 I4 I5 I6 I7 I8]. pose proof (holds_handles _ _ _ Hx) as Hin.
    destruct (I2 x c) as [b Hb]; [set_solver|done|]. exists b. split; [done|]. pose proof (I3 _ _ Hb). pose proof (I4 _ _ Hb).
    split; [lia|]. split; [lia|]. intros Hk. assert (0 < refs KShared c (handles h ++ [])); [|lia]. apply refs_pos. exists x. split; [set_solver|done].
  Qed.
  Lemma holds_ptr h l x P D : inv h P D -> holds h l x -> h_ptr x = h_rc x.
  Proof. intros Hi Hx. apply (inv_ok _ _ _ x Hi). apply elem_of_app. left. by eapply holds_handles. Qed.
  Lemma handle_eta x : h_ptr x = h_rc x -> x = Handle (h_kind x) (h_rc x) (h_rc x).
  Proof. destruct x; simpl. by intros ->. Qed.

  (** ** shared_ptr *)

  Lemma runs_add1 w l x k (Q : _ -> W -> Prop) : inv (w_heap w) [] [] -> holds (w_heap w) l x ->
    (k = KShared -> h_kind x = KShared) ->
    (inv (add1 (w_heap w) k (h_rc x)) [Handle k (h_rc x) (h_rc x)] [] -> Q tt (set_heap (add1 (w_heap w) k (h_rc x)) w)) ->
    runs (match k with KShared => ref_opt cf (h_rc x) | KWeak => weak_ref_opt cf (h_rc x) end) w Q.
  Proof.
    intros Hi Hx Hk HQ. apply runs_ref_opt.
    - intros c Hc. destruct (holds_inv_block _ _ _ _ Hi Hx Hc) as (b & Hb & Hu & Hw & _). by exists b.
    - apply HQ. apply inv_add1; [done|]. intros c Hc. destruct (holds_inv_block _ _ _ _ Hi Hx Hc) as (b & Hb & Hu & Hw & Hp).
      exists b. split; [done|]. auto.
  Qed.

  Lemma runs_sp_copy w l x (Q : _ -> W -> Prop) : inv (w_heap w) [] [] -> holds (w_heap w) l x -> h_kind x = KShared ->
    (inv (add1 (w_heap w) KShared (h_rc x)) [x] [] -> Q x (set_heap (add1 (w_heap w) KShared (h_rc x)) w)) ->
    runs (sp_copy cf l) w Q.
  Proof.
    intros Hi Hx Hk HQ. unfold sp_copy. rbind. eapply runs_get_handle; [exact Hx|]. rbind.
    eapply (runs_add1 w l x KShared); [done..|]. intros Hi'. apply runs_ret. pose proof (holds_ptr _ _ _ _ _ Hi Hx) as Hp.
    rewrite Hp. rewrite (handle_eta x Hp), Hk in HQ. rewrite (handle_eta x Hp), Hk. simpl in *. auto.
  Qed.
  Lemma runs_wp_copy w l x (Q : _ -> W -> Prop) : inv (w_heap w) [] [] -> holds (w_heap w) l x ->
    (inv (add1 (w_heap w) KWeak (h_rc x)) [Handle KWeak (h_rc x) (h_rc x)] [] ->
     Q (Handle KWeak (h_rc x) (h_rc x)) (set_heap (add1 (w_heap w) KWeak (h_rc x)) w)) ->
    runs (wp_copy cf l) w Q.
  Proof.
    intros Hi Hx HQ. unfold wp_copy. rbind. eapply runs_get_handle; [exact Hx|]. rbind.
    eapply (runs_add1 w l x KWeak); [done..|]. intros Hi'. apply runs_ret. rewrite (holds_ptr _ _ _ _ _ Hi Hx). auto.
  Qed.
  Lemma inv_put_null h l x k P D : holds h l x -> inv h P D -> inv (put h l (null k)) (x :: P) D.
  Proof. intros Hx Hi. apply inv_put; [done|]. by apply inv_null. Qed.
  Lemma runs_sp_move w l x (Q : _ -> W -> Prop) : inv (w_heap w) [] [] -> holds (w_heap w) l x ->
    (inv (put (w_heap w) l (null KShared)) [x] [] -> Q x (set_heap (put (w_heap w) l (null KShared)) w)) ->
    runs (sp_move l) w Q.
  Proof.
    intros Hi Hx HQ. unfold sp_move. rbind. eapply runs_get_handle; [exact Hx|]. rbind. eapply runs_put_handle; [exact Hx|].
    apply runs_ret. apply HQ. by apply inv_put_null.
  Qed.
  Lemma runs_wp_move w l x (Q : _ -> W -> Prop) : inv (w_heap w) [] [] -> holds (w_heap w) l x -> h_kind x = KWeak ->
    (inv (put (w_heap w) l (null KWeak)) [x] [] -> Q x (set_heap (put (w_heap w) l (null KWeak)) w)) ->
    runs (wp_move l) w Q.
  Proof.
    intros Hi Hx Hk HQ. unfold wp_move. rbind. eapply runs_get_handle; [exact Hx|]. rbind. eapply runs_put_handle; [exact Hx|].
    apply runs_ret. replace (Handle KWeak (h_ptr x) (h_rc x)) with x by (destruct x; simpl in *; by subst).
    apply HQ. by apply inv_put_null.
  Qed.

  Lemma runs_sp_swap w l l' x y (Q : _ -> W -> Prop) : inv (w_heap w) [] [] -> holds (w_heap w) l x -> holds (w_heap w) l' y ->
    h_kind x = h_kind y ->
    (forall h', inv h' [] [] -> holds h' l y -> holds h' l' x -> others_keep (w_heap w) h' [l; l'] -> evolves (w_heap w) h' ->
       Q tt (set_heap h' w)) ->
    runs (sp_swap l l') w Q.
  Proof.
    intros Hi Hx Hy Hk HQ. set (h := w_heap w) in *. unfold sp_swap. rbind. eapply runs_get_handle; [exact Hx|].
    rbind. eapply runs_get_handle; [exact Hy|]. rbind. eapply runs_put_handle; [exact Hx|].
    destruct (decide (l = l')) as [<-|Hn].
    - assert (y = x) as -> by (by eapply holds_inj). eapply runs_put_handle; [by eapply holds_put|]. simpl. fold h. rewrite put_put.
      pose proof (holds_put h l x x Hx) as Hx'. apply HQ.
      + apply (inv_null _ KShared). apply (inv_put_null h l x KShared) in Hi; [|done].
        eapply (inv_put _ l x (null KShared)) in Hi; [|by eapply holds_put]. by rewrite put_put in Hi.
      + done.
      + done.
      + eapply keep_weaken; [by eapply keep_put|set_solver].
      + by eapply evolves_put.
    - assert (Hy' : holds (put h l y) l' y) by (eapply holds_put_ne; [done|done|by exists x]).
      eapply runs_put_handle; [exact Hy'|]. simpl. fold h. apply HQ.
      + apply (inv_null _ KShared). apply (inv_put_null h l' y KShared) in Hi; [|done].
        assert (Hx' : holds (put h l' (null KShared)) l x) by (eapply holds_put_ne; [done|done|by exists y]).
        eapply (inv_put _ l y x) in Hi; [|done].
        eapply (inv_put _ l' x (null KShared)) in Hi.
        * rewrite <-(put_comm h l l') in Hi; [|done|by exists x|by exists y]. by rewrite put_put in Hi.
        * eapply holds_put_ne; [done|by eapply holds_put|by exists x].
      + eapply holds_put_ne; [done|by eapply holds_put|by exists y].
      + by eapply holds_put.
      + eapply (keep_trans _ (put h l y)); (eapply keep_weaken; [by eapply keep_put|set_solver]).
      + eapply (evolves_trans _ (put h l y)); by eapply evolves_put.
  Qed.

  Lemma ends_sp_reset bl w l x (Q : _ -> W -> Prop) : inv (w_heap w) [] [] -> (bl = false -> release_safe (w_heap w) l) ->
    holds (w_heap w) l x -> lok (w_heap w) l -> h_kind x = KShared ->
    (forall h', inv h' [] [] -> holds h' l (null KShared) -> others_keep (w_heap w) h' [l] -> evolves (w_heap w) h' ->
       Q tt (set_heap h' w)) ->
    ends bl (sp_reset cf l) w Q.
  Proof.
    intros Hi Hc Hx Hl Hk HQ. set (h := w_heap w) in *. unfold sp_reset. estep. eapply runs_get_handle; [exact Hx|].
    estep. eapply runs_put_handle; [exact Hx|]. fold h. change sp_null with (null KShared).
    eapply (ends_destroy_cut bl h l); simpl.
    - by apply inv_put_null.
    - by eapply cut_put'.
    - by intros Hbl _; apply Hc.
    - intros h' Hi' Hs. apply HQ; [done|..].
      + eapply holds_survive; [|by eapply holds_put|exact Hs|exact Hi']. intros Hb. apply lok_put; [done|]. exact (proj1 (put_is_block _ _ _ _) Hb).
      + eapply (keep_trans _ (put h l (null KShared))); [by eapply keep_put|]. by apply keep_shrinks.
      + eapply (evolves_trans _ (put h l (null KShared))); [eapply evolves_put; [exact Hx|done]|]. by apply evolves_shrinks.
  Qed.

  Lemma ends_sp_assign bl w l l' x y (Q : _ -> W -> Prop) : inv (w_heap w) [] [] -> (bl = false -> release_safe (w_heap w) l) ->
    holds (w_heap w) l x -> holds (w_heap w) l' y -> lok (w_heap w) l -> h_kind x = KShared -> h_kind y = KShared ->
    (forall h', inv h' [] [] -> holds h' l y -> others_keep (w_heap w) h' [l] -> evolves (w_heap w) h' -> Q tt (set_heap h' w)) ->
    ends bl (sp_assign cf l l') w Q.
  Proof.
    intros Hi Hc Hx Hy Hl Hkx Hky HQ. set (h := w_heap w) in *. unfold sp_assign. destruct (decide (l = l')) as [<-|Hn].
    { apply ends_ret. assert (y = x) as -> by (by eapply holds_inj). replace w with (set_heap h w) by (by destruct w).
      apply HQ; [done|done|apply keep_refl|apply evolves_refl]. }
    unfold sp_assign_conv. estep. eapply runs_get_handle; [exact Hx|]. estep. eapply runs_put_handle; [exact Hx|]. fold h.
    change sp_null with (null KShared). set (h1 := put h l (null KShared)).
    assert (Hy1 : holds h1 l' y) by (eapply holds_put_ne; [done|done|by exists x]).
    estep. eapply (runs_get_handle (set_heap h1 w)); [exact Hy1|].
    assert (Heta : Handle KShared (h_ptr y) (h_rc y) = y) by (destruct y; simpl in *; by subst). rewrite Heta.
    assert (Hl1 : holds h1 l (null KShared)) by (by eapply holds_put).
    estep. eapply (runs_put_handle (set_heap h1 w)); [exact Hl1|]. simpl. unfold h1 at 1. rewrite put_put.
    assert (Hi1 : inv h1 [x] []) by (by apply inv_put_null).
    assert (Hblk : forall c, h_rc y = Some c -> exists b, h1 !! c = Some (SBlock b) /\ (0 < cb_use b)%Z /\ (0 <= cb_weak b)%Z).
    { intros c Hyc. destruct (owned_alive h1 [x] [] c Hi1) as (b & v & hs & Hb & _ & Hu).
      - rewrite refs_app. assert (0 < refs KShared c (handles h1)); [|lia]. apply refs_pos. exists y. split; [by eapply holds_handles|done].
      - exists b. split; [done|]. split; [done|]. by eapply inv_counts_nonneg. }
    assert (Hi2 : inv (add1 (put h l y) KShared (h_rc y)) [x] []).
    { assert (Hi2 : inv (add1 h1 KShared (h_rc y)) [y; x] []).
      { assert (Hye : y = Handle KShared (h_rc y) (h_rc y)) by (rewrite <-Hky; apply handle_eta; by eapply (holds_ptr h)).
        enough (Hgoal : inv (add1 h1 KShared (h_rc y)) [Handle KShared (h_rc y) (h_rc y); x] []) by (by rewrite <-Hye in Hgoal).
        apply inv_add1; [done|]. intros c Hyc. destruct (Hblk c Hyc) as (b & Hb & Hu & _). by exists b. }
      eapply (inv_put _ l y (null KShared)) in Hi2; [|by apply holds_add1]. rewrite put_add1 in Hi2. unfold h1 in Hi2.
      rewrite put_put in Hi2. by apply (inv_null _ KShared) in Hi2. }
    estep. eapply (runs_ref_opt cf (set_heap (put h l y) w) KShared).
    { intros c Hyc. destruct (Hblk c Hyc) as (b & Hb & Hu & Hw). simpl.
      assert (is_block (put h l y) c) as [b' Hb'].
      { apply put_is_block. apply (put_is_block h l (null KShared)). by exists b. }
      exists b'. split; [done|]. apply put_block_inv in Hb' as (b0 & Hb0 & _ & Hu0 & Hw0 & _). unfold h1 in Hb.
      apply put_block_inv in Hb as (b0' & Hb0' & _ & Hu0' & Hw0' & _). assert (b0' = b0) as -> by congruence. lia. }
    simpl. eapply (ends_destroy_cut bl h l); simpl.
    - exact Hi2.
    - by eapply cut_put.
    - by intros Hbl _; apply Hc.
    - intros h' Hi' Hs. apply HQ; [done|..].
      + eapply holds_survive; [|apply holds_add1; exact (holds_put h l y x Hx)|exact Hs|exact Hi'].
        intros Hb. apply reach_add1. apply lok_put; [done|]. apply (put_is_block h l y). destruct Hb as [b Hb].
        destruct (proj2 (evolves_add1 (put h l y) KShared (h_rc y)) _ _ Hb) as (b0 & Hb0 & _). by exists b0.
      + eapply (keep_trans _ (put h l y)); [by eapply keep_put|].
        eapply (keep_trans _ (add1 (put h l y) KShared (h_rc y))); [apply keep_add1|]. by apply keep_shrinks.
      + eapply (evolves_trans _ (put h l y)); [eapply evolves_put; [exact Hx|congruence]|].
        eapply (evolves_trans _ (add1 (put h l y) KShared (h_rc y))); [apply evolves_add1|]. by apply evolves_shrinks.
  Qed.

  (** The source must stay reachable when the destination is emptied. *)
  Lemma ends_sp_move_assign bl w l l' x y (Q : _ -> W -> Prop) : inv (w_heap w) [] [] -> (bl = false -> release_safe (w_heap w) l) ->
    holds (w_heap w) l x -> holds (w_heap w) l' y -> lok (w_heap w) l -> h_kind x = KShared -> h_kind y = KShared ->
    lok (put (w_heap w) l (null KShared)) l' ->
    (forall h', inv h' [] [] -> holds h' l (if decide (l = l') then null KShared else y) -> holds h' l' (null KShared) ->
       others_keep (w_heap w) h' [l; l'] -> evolves (w_heap w) h' -> Q tt (set_heap h' w)) ->
    ends bl (sp_move_assign cf l l') w Q.
  Proof.
    intros Hi Hc Hx Hy Hl Hkx Hky Hl' HQ. set (h := w_heap w) in *. unfold sp_move_assign. estep. eapply runs_get_handle; [exact Hx|].
    estep. eapply runs_put_handle; [exact Hx|]. fold h. change sp_null with (null KShared). set (h1 := put h l (null KShared)) in *.
    assert (Hl1 : holds h1 l (null KShared)) by (by eapply holds_put).
    apply ends_bind. eapply (ends_destroy_cut bl h l); simpl.
    { by apply inv_put_null. }
    { by eapply cut_put'. }
    { by intros Hbl _; apply Hc. }
    intros h2 Hi2 Hs. assert (Hlok1 : lok h1 l) by (intros Hb; apply lok_put; [done|]; exact (proj1 (put_is_block _ _ _ _) Hb)).
    assert (Hl2 : holds h2 l (null KShared)) by (by eapply holds_survive).
    set (y1 := if decide (l = l') then null KShared else y).
    assert (Hy2 : holds h2 l' y1).
    { eapply holds_survive; [exact Hl'| |exact Hs|exact Hi2]. unfold y1. destruct (decide (l = l')) as [<-|Hn]; [done|].
      eapply holds_put_ne; [done|done|by exists x]. }
    assert (Hk1 : h_kind y1 = KShared) by (unfold y1; destruct (decide (l = l')); done).
    assert (Heta : Handle KShared (h_ptr y1) (h_rc y1) = y1) by (destruct y1; simpl in *; by subst).
    estep. eapply (runs_get_handle (set_heap h2 w)); [exact Hy2|]. rewrite Heta.
    estep. eapply (runs_put_handle (set_heap h2 w)); [exact Hy2|]. simpl.
    assert (Hi3 : inv (put h2 l' (null KShared)) [y1] []) by (by apply inv_put_null).
    assert (Hl3 : holds (put h2 l' (null KShared)) l (null KShared)).
    { destruct (decide (l' = l)) as [->|Hn]; [by eapply holds_put|]. eapply holds_put_ne; [done|done|by exists y1]. }
    apply runs_ends. eapply (runs_put_handle (set_heap _ w)); [exact Hl3|]. simpl. apply HQ.
    - eapply (inv_put _ l y1 (null KShared)) in Hi3; [|done]. by apply (inv_null _ KShared) in Hi3.
    - by eapply holds_put.
    - destruct (decide (l = l')) as [<-|Hn].
      + eapply holds_put in Hl3. unfold y1 in *. exact Hl3.
      + eapply holds_put_ne; [done|by eapply holds_put|by eexists].
    - eapply (keep_trans _ h1); [eapply keep_weaken; [by eapply (keep_put h l _ x)|set_solver]|].
      eapply (keep_trans _ h2); [by apply keep_shrinks|].
      eapply (keep_trans _ (put h2 l' (null KShared))); (eapply keep_weaken; [by eapply keep_put|set_solver]).
    - eapply (evolves_trans _ h1); [by eapply (evolves_put h l (null KShared) x)|].
      eapply (evolves_trans _ h2); [by apply evolves_shrinks|].
      eapply (evolves_trans _ (put h2 l' (null KShared))); [by eapply (evolves_put h2 l' (null KShared) y1)|].
      by eapply evolves_put.
  Qed.

  Lemma ends_drop_var bl w a x (Q : _ -> W -> Prop) : inv (w_heap w) [] [] -> (bl = false -> h_kind x = KShared -> release_safe (w_heap w) (a, 0)) -> w_heap w !! a = Some (SVar x) ->
    (forall h', inv h' [] [] -> shrinks (delete a (w_heap w)) h' -> Q tt (set_heap h' w)) ->
    ends bl (drop_var cf a) w Q.
  Proof.
    intros Hi Hc Ha HQ. set (h := w_heap w) in *. unfold drop_var. estep.
    eapply runs_get_handle; [unfold holds; simpl; fold h; rewrite Ha; done|]. estep. eapply runs_free_cell; [exact Ha|]. fold h.
    eapply (ends_destroy_cut bl h (a, 0)); simpl.
    - by apply inv_delvar.
    - by eapply cut_delete.
    - exact Hc.
    - exact HQ.
  Qed.

  (** ** weak_ptr *)

  Definition wdec (b : cblock V) : cblock V := CB (cb_alloc b) (cb_use b) (cb_weak b - 1) (cb_val b).
  Definition wrel h (c : addr) : H :=
    match h !! c with
    | Some (SBlock b) => if decide (cb_weak b - 1 = 0 /\ cb_use b = 0)%Z then delete c h else <[c:=SBlock (wdec b)]> h
    | _ => h
    end.
  Lemma runs_weak_release_det w c b (Q : _ -> W -> Prop) : w_heap w !! c = Some (SBlock b) -> (0 < cb_weak b)%Z ->
    (cb_use b = 0%Z -> cb_val b = None) -> Q tt (set_heap (wrel (w_heap w) c) w) -> runs (weak_release cf c) w Q.
  Proof.
    intros Hb Hw Hu HQ. unfold wrel in HQ. rewrite Hb in HQ. unfold weak_release. rbind. eapply runs_get_block; [done|].
    rbind. apply runs_assert; [by apply bool_decide_eq_true|]. rbind. eapply runs_put_block; [done|].
    destruct (decide _) as [[H1 H2]|Hn].
    - unfold destroy_self. rbind. eapply runs_get_block; [apply lookup_insert|]. simpl. rewrite Hu by done.
      eapply runs_free_cell; [apply lookup_insert|]. simpl. by rewrite delete_insert_delete.
    - by apply runs_ret.
  Qed.
  Lemma inv_weak_pos h P D x c b : inv h P D -> x ∈ handles h ++ P -> refers KWeak c x -> h !! c = Some (SBlock b) ->
    (0 < cb_weak b)%Z /\ (cb_use b = 0%Z -> cb_val b = None).
  Proof.
    intros [I1 I2 I3 I4 I5 I6 I7 I8] Hx Hr Hb. split.
    - rewrite (I4 _ _ Hb). assert (0 < refs KWeak c (handles h ++ P)); [|lia]. apply refs_pos. by exists x.
    - intros Hu. destruct (cb_val b) eqn:Ev; [|done]. assert (0 < cb_use b)%Z by (apply (I5 _ _ Hb); rewrite Ev; by eexists). lia.
  Qed.
  Lemma wrel_inv h x c P D : inv h (x :: P) D -> refers KWeak c x -> c ∉ D -> inv (wrel h c) P D /\ shrinks h (wrel h c).
  Proof.
    intros Hi Hx Hc. destruct (inv_tgt_block _ _ _ x c Hi) as [b Hb]; [left|by apply Hx|].
    destruct (inv_weak_pos _ _ _ x c b Hi) as [Hw Hu]; [set_solver|done|done|].
    pose (w := World h [] None 0 0 : W).
    assert (Hr : runs (weak_release cf c) w (fun _ w' => w' = set_heap (wrel h c) w)) by (by eapply runs_weak_release_det).
    destruct Hr as ([] & w' & Hr & ->). pattern (wrel h c). eapply (runs_done _ w tt _ (fun _ w' => inv (w_heap w') P D /\ shrinks h (w_heap w'))) in Hr; [exact Hr|].
    eapply runs_weak_release; [exact Hi|done|done|]. done.
  Qed.
  Lemma holds_wrel h c l y : (forall b, h !! c = Some (SBlock b) -> cb_use b = 0%Z -> cb_val b = None) ->
    holds h l y -> holds (wrel h c) l y.
  Proof.
    intros Hu Hy. unfold wrel. destruct (h !! c) as [[z|b]|] eqn:E; [done| |done]. specialize (Hu b eq_refl).
    unfold holds in *. destruct (decide (c = l.1)) as [->|Hn].
    - rewrite E in Hy. destruct Hy as (v & hs & Hv & Hy). rewrite decide_False by (intros [_ Hz]; rewrite Hu in Hv by done; done).
      rewrite lookup_insert. simpl. eauto.
    - destruct (decide _); [by rewrite lookup_delete_ne|by rewrite lookup_insert_ne].
  Qed.
  Lemma put_wrel h c l y z : (forall b, h !! c = Some (SBlock b) -> cb_use b = 0%Z -> cb_val b = None) ->
    holds h l y -> put (wrel h c) l z = wrel (put h l z) c.
  Proof.
    intros Hu Hy. destruct (decide (c = l.1)) as [->|Hn].
    - unfold wrel, put. rewrite lookup_alter. unfold holds in Hy. destruct (h !! l.1) as [[u|b]|] eqn:E; [done| |done]. simpl.
      specialize (Hu b eq_refl). destruct Hy as (v & hs & Hv & Hy).
      rewrite decide_False by (intros [_ Hz]; rewrite Hu in Hv by done; done).
      rewrite decide_False by (intros [_ Hz]; rewrite Hu in Hv by done; done).
      apply map_eq. intros a. destruct (decide (a = l.1)) as [->|Hna].
      + by rewrite lookup_alter, !lookup_insert.
      + by rewrite lookup_alter_ne, !lookup_insert_ne, lookup_alter_ne.
    - assert (Hc : put h l z !! c = h !! c) by (unfold put; by rewrite lookup_alter_ne). unfold wrel. rewrite Hc.
      destruct (h !! c) as [[u|b]|]; [done| |done]. unfold put. destruct (decide _) as [Hdec|Hdec].
      + apply map_eq. intros a. destruct (decide (a = c)) as [->|Hna].
        * rewrite lookup_alter_ne by done. by rewrite !lookup_delete.
        * rewrite lookup_delete_ne by done. destruct (decide (a = l.1)) as [->|Hnl].
          -- by rewrite !lookup_alter, lookup_delete_ne.
          -- by rewrite !lookup_alter_ne, lookup_delete_ne.
      + apply map_eq. intros a. destruct (decide (a = c)) as [->|Hna].
        * rewrite lookup_alter_ne by done. by rewrite !lookup_insert.
        * rewrite lookup_insert_ne by done. destruct (decide (a = l.1)) as [->|Hnl].
          -- by rewrite !lookup_alter, lookup_insert_ne.
          -- by rewrite !lookup_alter_ne, lookup_insert_ne.
  Qed.

  (** Destroying the weak_ptr at [l] while it is still stored there. *)
  Lemma runs_wp_release w l x (Q : _ -> W -> Prop) : inv (w_heap w) [] [] -> holds (w_heap w) l x -> h_kind x = KWeak ->
    (forall h1, inv (put h1 l (null KWeak)) [] [] -> shrinks (put (w_heap w) l (null KWeak)) (put h1 l (null KWeak)) ->
       (forall l' y, holds (w_heap w) l' y -> holds h1 l' y) ->
       (forall c b, h_rc x = Some c -> w_heap w !! c = Some (SBlock b) -> (0 < cb_use b \/ 1 < cb_weak b)%Z -> is_block h1 c) ->
       Q tt (set_heap h1 w)) ->
    runs (destroy_handle cf x) w Q.
  Proof.
    intros Hi Hx Hk HQ. set (h := w_heap w) in *. pose proof (inv_put_null h l x KWeak [] [] Hx Hi) as Hi1.
    unfold destroy_handle. rewrite Hk. destruct (h_rc x) as [c|] eqn:Hc.
    - destruct (holds_inv_block _ _ _ _ Hi Hx Hc) as (b & Hb & _).
      destruct (inv_weak_pos _ _ _ x c b Hi) as [Hw Hu]; [apply elem_of_app; left; by eapply holds_handles|done|done|].
      assert (Hu' : forall b, h !! c = Some (SBlock b) -> cb_use b = 0%Z -> cb_val b = None) by (intros b' Hb'; by simplify_eq).
      destruct (wrel_inv _ x c _ _ Hi1) as [Hi2 Hs]; [done|by apply not_elem_of_nil|].
      eapply runs_weak_release_det; [done..|]. fold h. apply HQ.
      + by rewrite (put_wrel h c l x).
      + by rewrite (put_wrel h c l x).
      + intros l' y. by apply holds_wrel.
      + intros c' b' Hc' Hb' Hp. assert (c' = c) as -> by congruence. assert (b' = b) as -> by congruence.
        unfold wrel. rewrite Hb. rewrite decide_False by lia.
        exists (wdec b). by rewrite lookup_insert.
    - apply runs_ret. replace w with (set_heap h w) by (by destruct w). apply HQ.
      + apply (inv_null _ (h_kind x)). assert (Hp : h_ptr x = None) by (rewrite <-Hc; by eapply (holds_ptr h)).
        destruct x; simpl in *; subst. exact Hi1.
      + apply shrinks_refl.
      + done.
      + done.
  Qed.

  Lemma runs_wp_reset w l x (Q : _ -> W -> Prop) : inv (w_heap w) [] [] -> holds (w_heap w) l x -> h_kind x = KWeak ->
    (forall h', inv h' [] [] -> holds h' l (null KWeak) -> others_keep (w_heap w) h' [l] -> evolves (w_heap w) h' ->
       Q tt (set_heap h' w)) ->
    runs (wp_reset cf l) w Q.
  Proof.
    intros Hi Hx Hk HQ. set (h := w_heap w) in *. unfold wp_reset. rbind. eapply runs_get_handle; [exact Hx|].
    rbind. eapply (runs_wp_release w l x); [done..|]. intros h1 Hi1 Hs1 Hh1 _. eapply runs_put_handle; [simpl; by eapply Hh1|].
    simpl. change wp_null with (null KWeak). apply HQ.
    - done.
    - eapply holds_put. by apply Hh1.
    - eapply (keep_trans _ (put h l (null KWeak))); [by eapply keep_put|]. by apply keep_shrinks.
    - eapply (evolves_trans _ (put h l (null KWeak))); [by eapply evolves_put|]. by apply evolves_shrinks.
  Qed.

  (** Assigning the only weak_ptr to a dead object to itself is excluded. *)
  Lemma runs_wp_assign w l l' x y (Q : _ -> W -> Prop) : inv (w_heap w) [] [] -> holds (w_heap w) l x -> holds (w_heap w) l' y ->
    h_kind x = KWeak -> (l = l' -> forall c b, h_rc x = Some c -> w_heap w !! c = Some (SBlock b) -> (0 < cb_use b \/ 1 < cb_weak b)%Z) ->
    (forall h', inv h' [] [] -> holds h' l (Handle KWeak (h_rc y) (h_rc y)) -> others_keep (w_heap w) h' [l] -> evolves (w_heap w) h' ->
       Q tt (set_heap h' w)) ->
    runs (wp_assign cf l l') w Q.
  Proof.
    intros Hi Hx Hy Hk Hself HQ. set (h := w_heap w) in *. unfold wp_assign. rbind. eapply runs_get_handle; [exact Hx|].
    rbind. eapply (runs_wp_release w l x); [done..|]. intros h1 Hi1 Hs1 Hh1 Hb1.
    rbind. eapply runs_get_handle; [simpl; by apply Hh1|]. rewrite (holds_ptr h l' y [] [] Hi Hy).
    set (o := Handle KWeak (h_rc y) (h_rc y)). rbind. eapply runs_put_handle; [simpl; by apply Hh1|]. simpl.
    assert (Hblk : forall c, h_rc y = Some c -> is_block (put h1 l (null KWeak)) c).
    { intros c Hc. destruct (decide (l = l')) as [<-|Hn].
      - assert (y = x) as -> by (by eapply holds_inj). destruct (holds_inv_block _ _ _ _ Hi Hx Hc) as (b & Hb & _).
        apply put_is_block. eapply Hb1; [done..|]. by eapply Hself.
      - assert (Hy2 : holds (put h1 l (null KWeak)) l' y).
        { eapply holds_put_ne; [done|by apply Hh1|]. exists x. by apply Hh1. }
        destruct (holds_inv_block _ _ _ _ Hi1 Hy2 Hc) as (b & Hb & _). by exists b. }
    assert (Hi2 : inv (add1 (put h1 l o) KWeak (h_rc y)) [] []).
    { assert (Hi2 : inv (add1 (put h1 l (null KWeak)) KWeak (h_rc y)) [o] []).
      { apply inv_add1; [done|]. intros c Hc. destruct (Hblk c Hc) as [b Hb]. by exists b. }
      eapply (inv_put _ l o (null KWeak)) in Hi2.
      - apply (inv_null _ KWeak) in Hi2. by rewrite put_add1, put_put in Hi2.
      - apply holds_add1. eapply holds_put. by apply Hh1. }
    eapply (runs_ref_opt cf (set_heap (put h1 l o) w) KWeak).
    { intros c Hc. destruct (Hblk c Hc) as [b Hb]. simpl. pose proof (inv_counts_nonneg _ _ _ _ _ Hi1 Hb) as [Hu Hw].
      assert (is_block (put h1 l o) c) as [b' Hb'].
      { apply put_is_block. apply (put_is_block h1 l (null KWeak)). by exists b. }
      exists b'. split; [done|]. apply put_block_inv in Hb' as (b0 & Hb0 & _ & Hu0 & Hw0 & _).
      apply put_block_inv in Hb as (b0' & Hb0' & _ & Hu0' & Hw0' & _). assert (b0' = b0) as -> by congruence. lia. }
    simpl. assert (Hkeep : others_keep h (put h1 l (null KWeak)) [l]).
    { eapply (keep_trans _ (put h l (null KWeak))); [by eapply keep_put|]. by apply keep_shrinks. }
    assert (Hev : evolves h (put h1 l (null KWeak))).
    { eapply (evolves_trans _ (put h l (null KWeak))); [by eapply evolves_put|]. by apply evolves_shrinks. }
    assert (Hl2 : holds (put h1 l (null KWeak)) l (null KWeak)) by (eapply holds_put; by apply Hh1).
    apply HQ.
    - done.
    - apply holds_add1. eapply holds_put. by apply Hh1.
    - eapply (keep_trans _ (put h1 l o)); [|apply keep_add1]. rewrite <-(put_put h1 l (null KWeak) o).
      eapply keep_trans; [exact Hkeep|]. by eapply keep_put.
    - eapply (evolves_trans _ (put h1 l o)); [|apply evolves_add1]. rewrite <-(put_put h1 l (null KWeak) o).
      eapply evolves_trans; [exact Hev|]. by eapply evolves_put.
  Qed.

  Lemma runs_use_count w l x (Q : _ -> W -> Prop) : inv (w_heap w) [] [] -> holds (w_heap w) l x ->
    Q (match h_rc x with Some c => Z.of_nat (owners (w_heap w) c) | None => 0%Z end) w -> runs (sp_use_count cf l) w Q.
  Proof.
    intros Hi Hx HQ. unfold sp_use_count. rbind. eapply runs_get_handle; [exact Hx|]. destruct (h_rc x) as [c|] eqn:Hc; [|by apply runs_ret].
    destruct (holds_inv_block _ _ _ _ Hi Hx Hc) as (b & Hb & Hu & _). unfold cb_use_count. rbind. eapply runs_get_block; [done|].
    rbind. apply runs_assert; [by apply bool_decide_eq_true|]. apply runs_ret.
    pose proof Hi as [_ _ I3 _ _ _ _ _]. rewrite (I3 _ _ Hb). unfold owners in HQ. by rewrite app_nil_r.
  Qed.
  Lemma runs_wp_expired w l x (Q : _ -> W -> Prop) : inv (w_heap w) [] [] -> holds (w_heap w) l x ->
    (forall e : bool, (e = false <-> exists c, h_rc x = Some c /\ 0 < owners (w_heap w) c) -> Q e w) -> runs (wp_expired cf l) w Q.
  Proof.
    intros Hi Hx HQ. unfold wp_expired, wp_use_count. rbind. eapply runs_use_count; [done..|]. apply runs_ret. apply HQ.
    rewrite bool_decide_eq_false. destruct (h_rc x) as [c|]; [|naive_solver]. split.
    - intros Hn. exists c. split; [done|]. lia.
    - intros (c' & ? & Hp). simplify_eq. lia.
  Qed.
  Lemma owners_use h P D c b : inv h P D -> P = [] -> h !! c = Some (SBlock b) -> cb_use b = Z.of_nat (owners h c).
  Proof. intros [_ _ I3 _ _ _ _ _] -> Hb. rewrite (I3 _ _ Hb). unfold owners. by rewrite app_nil_r. Qed.
  Lemma runs_wp_lock w l x c (Q : _ -> W -> Prop) : inv (w_heap w) [] [] -> holds (w_heap w) l x -> h_rc x = Some c ->
    0 < owners (w_heap w) c ->
    (inv (add1 (w_heap w) KShared (Some c)) [Handle KShared (Some c) (Some c)] [] ->
     Q (Handle KShared (Some c) (Some c)) (set_heap (add1 (w_heap w) KShared (Some c)) w)) ->
    runs (wp_lock cf l) w Q.
  Proof.
    intros Hi Hx Hc Hp HQ. unfold wp_lock. rbind. eapply runs_get_handle; [exact Hx|]. rewrite (holds_ptr _ _ _ _ _ Hi Hx), Hc.
    destruct (holds_inv_block _ _ _ _ Hi Hx Hc) as (b & Hb & Hu & Hw & _). pose proof (owners_use _ _ _ _ _ Hi eq_refl Hb) as Ho.
    unfold sp_raw. rbind. eapply (runs_ref_opt cf w KShared).
    - intros c' ?. simplify_eq. by exists b.
    - apply runs_ret. apply HQ. apply inv_add1; [done|]. intros c' ?. simplify_eq. exists b. split; [done|]. intros _. lia.
  Qed.

  (** ** make_shared *)

  Lemma refs_nulls k c ks : refs k c (null <$> ks) = 0.
  Proof. apply refs_zero. intros x Hx. apply elem_of_list_fmap in Hx as (k' & -> & _). by intros [_ ?]. Qed.
  Lemma inv_newblock h c al v ks : inv h [] [] -> h !! c = None ->
    inv (<[c:=SBlock (CB al 1 0 (Some (v, null <$> ks)))]> h) [Handle KShared (Some c) (Some c)] [].
  Proof.
    intros [I1 I2 I3 I4 I5 I6 I7 I8] Hc. set (b' := CB al 1 0 (Some (v, null <$> ks))). set (x := Handle KShared (Some c) (Some c)).
    rewrite app_nil_r in *.
    assert (Hp : handles (<[c:=SBlock b']> h) ++ [x] ≡ₚ x :: (null <$> ks) ++ handles h).
    { rewrite handles_insert_new by done. simpl. by rewrite Permutation_app_comm. }
    unfold inv. eapply inv0_perm; [symmetry; exact Hp|].
    assert (Hcase : forall d bd, <[c:=SBlock b']> h !! d = Some (SBlock bd) -> d = c /\ bd = b' \/ d <> c /\ h !! d = Some (SBlock bd)).
    { intros d bd Hd. destruct (decide (d = c)) as [->|Hn].
      - rewrite lookup_insert in Hd. simplify_eq. by left.
      - rewrite lookup_insert_ne in Hd by done. by right. }
    assert (Hold : forall k, refs k c (handles h) = 0).
    { intros k. apply refs_zero. intros y Hy [_ Hr]. destruct (I2 y c Hy Hr) as [b Hb]. congruence. }
    assert (Hrefs : forall k d, refs k d (x :: (null <$> ks) ++ handles h) = (if decide (k = KShared /\ d = c) then 1 else 0) + refs k d (handles h)).
    { intros k d. rewrite refs_cons, refs_app, refs_nulls. destruct (decide (refers k d x)) as [Hq|Hq]; unfold refers in Hq; simpl in Hq.
      - rewrite decide_True by naive_solver. lia.
      - rewrite decide_False by naive_solver. lia. }
    split.
    - intros y Hy. rewrite elem_of_cons, elem_of_app, elem_of_list_fmap in Hy. destruct Hy as [->|[(k & -> & _)|Hy]]; [done|done|auto].
    - intros y d Hy Hd. rewrite elem_of_cons, elem_of_app, elem_of_list_fmap in Hy. destruct Hy as [->|[(k & -> & _)|Hy]].
      + simpl in Hd. simplify_eq. exists b'. by rewrite lookup_insert.
      + done.
      + destruct (I2 y d Hy Hd) as [bd Hb]. exists bd. rewrite lookup_insert_ne; [done|]. congruence.
    - intros d bd Hd. rewrite Hrefs. apply Hcase in Hd as [[-> ->]|[Hn Hd]].
      + rewrite decide_True by done. by rewrite Hold.
      + rewrite decide_False by naive_solver. by apply I3.
    - intros d bd Hd. rewrite Hrefs. rewrite decide_False by naive_solver. apply Hcase in Hd as [[-> ->]|[Hn Hd]].
      + by rewrite Hold.
      + by apply I4.
    - intros d bd Hd. apply Hcase in Hd as [[-> ->]|[Hn Hd]]; [|by eapply I5]. simpl. split; [lia|by eexists].
    - intros d bd Hd Hin. by apply elem_of_nil in Hin.
    - intros d bd Hd Hin. apply Hcase in Hd as [[-> ->]|[Hn Hd]]; [simpl; lia|]. by eapply I7.
    - intros d Hin. by apply elem_of_nil in Hin.
  Qed.
  Lemma runs_make_shared w al v ks (Q : _ -> W -> Prop) : inv (w_heap w) [] [] -> w_err w = None ->
    (forall c orc, w_heap w !! c = None ->
       let h' := <[c:=SBlock (CB (c_dflt cf) 1 0 (Some (v, null <$> ks)))]> (w_heap w) in
       inv h' [Handle KShared (Some c) (Some c)] [] ->
       Q (Handle KShared (Some c) (Some c)) (World h' orc None (S (w_allocs w)) (S (w_ctors w)))) ->
    (forall orc e nc, (e = EBadAlloc \/ c_kind cf <> Nothrow /\ exists code, e = EElem code) ->
       Q (null KShared) (World (w_heap w) orc (Some e) (S (w_allocs w)) nc)) ->
    runs (make_shared_a cf al v ks) w Q.
  Proof.
    intros Hi He Hok Hfail. unfold make_shared_a. rbind. apply runs_alloc_cell.
    - intros c orc Hc. rbind. apply runs_has_err. simpl. rewrite He. set (h := w_heap w) in *.
      set (h0 := <[c:=SBlock (CB (c_dflt cf) 0 0 None)]> h).
      set (hl := fun x : V => <[c:=SBlock (CB (c_dflt cf) 0 0 (Some (x, null <$> ks)))]> h).
      rbind. eapply (runs_construct cf _ _ _ _ v h0 hl); simpl; [done|done|..].
      + intros x w1 P Hw HP. rbind. eapply runs_get_block; [rewrite Hw; apply lookup_insert|]. eapply runs_put_block; [rewrite Hw; apply lookup_insert|].
        rewrite Hw. unfold h0. rewrite insert_insert. exact HP.
      + intros x y w1 P Hw HP. rbind. eapply runs_get_block; [rewrite Hw; apply lookup_insert|]. eapply runs_put_block; [rewrite Hw; apply lookup_insert|].
        rewrite Hw. unfold hl. rewrite insert_insert. exact HP.
      + intros y w1 P Hw HP. rbind. eapply runs_get_block; [rewrite Hw; apply lookup_insert|]. eapply runs_put_block; [rewrite Hw; apply lookup_insert|].
        rewrite Hw. unfold hl. rewrite insert_insert. exact HP.
      + intros w1 P _ HP. by apply runs_ret.
      + intros orc'. rbind. apply runs_has_err. simpl. unfold sp_raw. rbind. unfold ref_opt, add_ref. rbind.
        eapply runs_get_block; [apply lookup_insert|]. rbind. apply runs_assert; [done|]. eapply runs_put_block; [apply lookup_insert|].
        apply runs_ret. simpl. unfold set_heap, hl. simpl. rewrite insert_insert. apply Hok; [done|]. by apply inv_newblock.
      + intros orc' code Hk. rbind. apply runs_has_err. simpl. rbind. eapply runs_free_cell; [apply lookup_insert|]. apply runs_ret. simpl.
        unfold set_heap, h0. simpl. rewrite delete_insert by done. apply Hfail. right. split; [done|]. by eexists.
    - intros orc. rbind. apply runs_has_err. simpl. apply runs_ret. apply Hfail. by left.
  Qed.
End ops.
