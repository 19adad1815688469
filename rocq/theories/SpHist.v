(** * Histories of shared_ptr and weak_ptr operations *)
From Verif Require Export SpOps.

Section hist.
  Context {V : Type} (cf : cfg V).
  Notation H := (gmap addr (scell V)).
  Notation W := (world (scell V)).
  Implicit Types h : H.
  Implicit Types w : W.
  Implicit Types x y : handle.

  Definition vars_ok h (vars : list addr) : Prop := NoDup vars /\ forall a, a ∈ vars <-> is_var h a.
  Definition good h vars : Prop := inv h [] [] /\ vars_ok h vars.

  (** Members of the objects alive are of the kinds [P]. *)
  Definition members_in (P : hkind -> Prop) h : Prop := forall c b v hs, h !! c = Some (SBlock b) -> cb_val b = Some (v, hs) ->
    Forall (fun x => P (h_kind x)) hs.
  Definition make_in (P : hkind -> Prop) (op : spop V) : Prop := match op with SoMake _ ks => Forall P ks | _ => True end.
  (** They are shared_ptrs. *)
  Definition members_shared h : Prop := members_in (fun k => k = KShared) h.
  Lemma members_shared_safe h : members_shared h -> no_weak_cycle h.
  Proof.
    intros Hm c d (b & v & hs & x & Hb & Hv & Hx & Hk & _). pose proof (Hm c b v hs Hb Hv) as Hf.
    rewrite Forall_forall in Hf. specialize (Hf x Hx). congruence.
  Qed.
  Lemma kinds_shared P (hs hs' : list handle) : h_kind <$> hs' = h_kind <$> hs -> Forall (fun x => P (h_kind x)) hs -> Forall (fun x => P (h_kind x)) hs'.
  Proof.
    revert hs. induction hs' as [|x hs' IH]; intros [|y hs] Hk Hf; [done|done|done|]. simpl in Hk. injection Hk as Hxy Hk. inversion Hf; subst.
    constructor; [congruence|]. by eapply IH.
  Qed.
  Lemma objects_shared P h h' : objects_kept h h' -> members_in P h -> members_in P h'.
  Proof.
    intros Ho Hm c b v hs Hb Hv. destruct (Ho _ _ Hb) as (b0 & Hb0 & _ & Hk). rewrite Hv in Hk. unfold object_kept in Hk.
    destruct (cb_val b0) as [[v0 hs0]|] eqn:Hv0; [|done]. destruct Hk as [_ Hk]. eapply kinds_shared; [exact Hk|]. by eapply Hm.
  Qed.

  (** What one statement may do to objects that exist before and after it. *)
  Definition persists h h' : Prop := forall c b b', h !! c = Some (SBlock b) -> h' !! c = Some (SBlock b') ->
    cb_alloc b' = cb_alloc b /\ object_kept (cb_val b) (cb_val b').
  Lemma kept_persists h h' : objects_kept h h' -> persists h h'.
  Proof. intros Ho c b b' Hb Hb'. destruct (Ho _ _ Hb') as (b0 & Hb0 & Hr). assert (b0 = b) as -> by congruence. done. Qed.

  Lemma vars_evolves h h' vars : evolves h h' -> vars_ok h vars -> vars_ok h' vars.
  Proof. intros [Hv _] [Hn Hok]. split; [done|]. intros a. by rewrite Hok, Hv. Qed.

  (** ** Expressions *)

  Lemma runs_eval w vars e (Q : _ -> W -> Prop) : good (w_heap w) vars ->
    (forall r, (forall l, r = Some l -> lok (w_heap w) l /\ exists x, holds (w_heap w) l x) -> Q r w) ->
    runs (eval cf vars e) w Q.
  Proof.
    intros [Hi [Hnd Hok]]. revert Q. induction e as [i|e IH j]; intros Q HQ; cbn [eval].
    - apply runs_ret. apply HQ. intros l Hl. apply fmap_Some in Hl as (a & Ha & ->). apply elem_of_list_lookup_2 in Ha.
      apply Hok in Ha as [x Hx]. split.
      + intros [b Hb]. simpl in Hb. congruence.
      + exists x. unfold holds. simpl. by rewrite Hx.
    - rbind. apply IH. intros [l|] Hr; [|apply runs_ret; by apply HQ]. destruct (Hr l eq_refl) as [Hl [x Hx]].
      rbind. eapply runs_get_handle; [exact Hx|]. destruct (decide _) as [[Hk Hp]|Hn]; [|apply runs_ret; by apply HQ].
      pose proof (holds_ptr _ _ _ _ _ Hi Hx) as Hpr. destruct (h_ptr x) as [c|] eqn:Hpx; [|done]. symmetry in Hpr.
      destruct (holds_inv_block _ _ _ _ Hi Hx Hpr) as (b & Hb & _ & _ & Hu). specialize (Hu Hk).
      assert (Hv : is_Some (cb_val b)) by (by apply (i_val _ _ _ Hi _ _ Hb)). destruct Hv as [[v hs] Hv].
      rbind. unfold sp_deref. rbind. eapply runs_get_handle; [exact Hx|]. rewrite Hpx. rbind. apply runs_assert; [by apply bool_decide_eq_true|].
      rbind. eapply runs_get_block; [done|]. rewrite Hv. apply runs_ret. apply runs_ret. simpl. apply HQ.
      intros l' Hl'. destruct (decide (j < length hs)) as [Hj|]; [|done]. simplify_eq. split.
      + intros _. simpl. unfold holds in Hx. destruct (w_heap w !! l.1) as [[y|b0]|] eqn:E; [| |done].
        * destruct Hx as [_ ->]. eapply reach_var; [exact E|done].
        * destruct Hx as (v0 & hs0 & Hv0 & Hx). eapply reach_mem; [apply Hl; by exists b0|done|].
          exists b0, v0, hs0, x. split; [done|]. split; [done|]. split; [by eapply elem_of_list_lookup_2|done].
      + destruct (lookup_lt_is_Some_2 hs j Hj) as [y Hy]. exists y. unfold holds. simpl. rewrite Hb. by exists v, hs.
  Qed.

  Lemma runs_with_loc {A} w vars e (d : A) f (Q : _ -> W -> Prop) : good (w_heap w) vars -> Q d w ->
    (forall l x, lok (w_heap w) l -> holds (w_heap w) l x -> runs (f l (h_kind x)) w Q) ->
    runs (with_loc cf vars e d f) w Q.
  Proof.
    intros Hg Hd Hf. unfold with_loc. rbind. apply runs_eval; [done|]. intros [l|] Hr; [|by apply runs_ret].
    destruct (Hr l eq_refl) as [Hl [x Hx]]. rbind. eapply runs_get_handle; [exact Hx|]. by apply Hf.
  Qed.

  (** The state is the same after evaluating an expression. *)
  Lemma ends_with_loc {A} bl w vars e (d : A) f (Q : _ -> W -> Prop) : good (w_heap w) vars -> Q d w ->
    (forall l x, eval cf vars e w = Done (Some l) w -> lok (w_heap w) l -> holds (w_heap w) l x -> ends bl (f l (h_kind x)) w Q) ->
    ends bl (with_loc cf vars e d f) w Q.
  Proof.
    intros Hg Hd Hf. unfold with_loc. estep.
    assert (Hr : runs (eval cf vars e) w (fun r w' => w' = w /\ forall l, r = Some l -> lok (w_heap w) l /\ exists x, holds (w_heap w) l x)) by (by apply runs_eval).
    destruct Hr as (r & w' & He & -> & Hr). eapply runs_eq; [exact He|]. destruct r as [l|]; [|by apply ends_ret].
    destruct (Hr l eq_refl) as [Hl [x Hx]]. estep. eapply runs_get_handle; [exact Hx|]. by apply Hf.
  Qed.

  (** ** Statements *)

  Definition after (op : spop V) h vars' h' : Prop :=
    good h' vars' /\ persists h h' /\ (forall P, make_in P op -> members_in P h -> members_in P h').

  Lemma after_evolves op h h' vars : vars_ok h vars -> inv h' [] [] -> evolves h h' -> after op h vars h'.
  Proof.
    intros Hv Hi He. split; [|split].
    - split; [done|]. by eapply vars_evolves.
    - by apply kept_persists, He.
    - intros ? _. by apply objects_shared, He.
  Qed.
  Lemma objects_newvar h a x : h !! a = None -> objects_kept h (<[a:=SVar x]> h).
  Proof.
    intros Ha c b Hb. destruct (decide (c = a)) as [->|Hn]; [rewrite lookup_insert in Hb; simplify_eq|].
    rewrite lookup_insert_ne in Hb by done. exists b. split; [done|]. split; [done|]. apply object_kept_refl.
  Qed.
  Lemma objects_kept_trans h1 h2 h3 : objects_kept h1 h2 -> objects_kept h2 h3 -> objects_kept h1 h3.
  Proof.
    intros A B c b3 H3. apply B in H3 as (b2 & H2 & Ha & Ho). apply A in H2 as (b1 & H1 & Ha' & Ho'). exists b1.
    split; [done|]. split; [congruence|]. by eapply object_kept_trans.
  Qed.
  Lemma vars_newvar h vars a x : h !! a = None -> vars_ok h vars -> vars_ok (<[a:=SVar x]> h) (vars ++ [a]).
  Proof.
    intros Ha [Hn Hv]. split.
    - apply NoDup_app. split; [done|]. split; [|apply NoDup_singleton]. intros b Hb Hin. apply elem_of_list_singleton in Hin as ->.
      apply Hv in Hb as [y Hy]. congruence.
    - intros b. rewrite elem_of_app, elem_of_list_singleton, Hv. unfold is_var. destruct (decide (b = a)) as [->|Hne].
      + rewrite lookup_insert. split; [by eexists|by right].
      + rewrite lookup_insert_ne by done. naive_solver.
  Qed.

  (** A new variable. *)
  Lemma runs_declare op w vars (m : M (scell V) handle) : good (w_heap w) vars ->
    runs m w (fun x w' => inv (w_heap w') [x] [] /\ evolves (w_heap w) (w_heap w')) ->
    runs (declare vars m) w (fun vars' w' => after op (w_heap w) vars' (w_heap w')).
  Proof.
    intros [Hi Hv] Hm. unfold declare. rbind. eapply runs_mono; [exact Hm|]. intros x w1 [Hi1 He]. cbv beta.
    rbind. unfold make_var. apply runs_new_local. intros a Ha. apply runs_ret. simpl.
    assert (Ho : objects_kept (w_heap w) (<[a:=SVar x]> (w_heap w1))) by (eapply objects_kept_trans; [apply He|by apply objects_newvar]).
    split; [|split].
    - split; [by apply inv_newvar|]. apply vars_newvar; [done|]. by eapply vars_evolves.
    - by apply kept_persists.
    - intros ? _. by apply objects_shared.
  Qed.

  Lemma set_heap_id w : set_heap (w_heap w) w = w.
  Proof. by destruct w. Qed.

  Lemma exec_spop_after bl op vars w : good (w_heap w) vars -> (bl = false -> weak_safe cf op vars w) ->
    ends bl (exec_spop cf op vars) w (fun vars' w' => after op (w_heap w) vars' (w_heap w')).
  Proof.
    intros Hg Hc. pose proof Hg as [Hi Hv]. set (h := w_heap w) in *.
    assert (Hsame : after op h vars h) by (apply after_evolves; [done|done|apply evolves_refl]).
    destruct op as [v ks|k|e|e|e|e|e e'|e i|e e'|e|i]; cbn [exec_spop].
    - (* make *) apply runs_ends. rbind. apply runs_put_err. unfold declare, make_shared. rbind. eapply runs_make_shared; simpl; [done|done|..].
      + intros c orc Hc0 Hi'. set (h' := <[c:=SBlock (CB (c_dflt cf) 1 0 (Some (v, null <$> ks)))]> (w_heap w)) in *. rbind. unfold make_var. apply runs_new_local. intros a Ha. simpl in *. apply runs_ret. simpl.
        fold h in Hc0. assert (Hh' : forall d b, <[a:=SVar (Handle KShared (Some c) (Some c))]> h' !! d = Some (SBlock b) ->
          d = c /\ b = CB (c_dflt cf) 1 0 (Some (v, null <$> ks)) \/ d <> c /\ h !! d = Some (SBlock b)).
        { intros d b Hd. destruct (decide (d = a)) as [->|Hna]; [rewrite lookup_insert in Hd; simplify_eq|]. rewrite lookup_insert_ne in Hd by done.
          unfold h' in Hd. destruct (decide (d = c)) as [->|Hnc].
          - rewrite lookup_insert in Hd. left. by simplify_eq.
          - rewrite lookup_insert_ne in Hd by done. by right. }
        split; [|split].
        * split; [by apply inv_newvar|]. apply vars_newvar; [done|]. destruct Hv as [Hn Hok]. split; [done|]. intros b. rewrite Hok.
          unfold is_var, h'. destruct (decide (b = c)) as [->|Hnb]; [|by rewrite lookup_insert_ne].
          rewrite lookup_insert, Hc0. split; intros [? ?]; simplify_eq.
        * intros d b b' Hb Hb'. apply Hh' in Hb' as [[-> _]|[Hn Hd]]; [congruence|].
          assert (b' = b) as -> by congruence. split; [done|]. apply object_kept_refl.
        * intros P Hsm Hms d b v0 hs Hb Hv0. apply Hh' in Hb as [[-> ->]|[Hn Hd]]; [|by eapply Hms].
          simpl in Hv0. simplify_eq. simpl in Hsm. apply Forall_fmap. eapply Forall_impl; [exact Hsm|]. simpl. auto.
      + intros orc e nc _. rbind. unfold make_var. apply runs_new_local. intros a Ha. simpl in *. apply runs_ret. simpl.
        fold h. fold h in Ha. pose proof (objects_newvar h a (null KShared) Ha) as Ho. split; [|split].
        * split; [apply inv_newvar; [done|by apply inv_null]|by apply vars_newvar].
        * by apply kept_persists.
        * intros ? _. by apply objects_shared.
    - (* null *) apply runs_ends. apply runs_declare; [done|]. apply runs_ret. split; [by apply inv_null|apply evolves_refl].
    - (* copy *) apply runs_ends. eapply runs_with_loc; [done|done|]. intros l x Hl Hx. apply runs_declare; [done|]. destruct (h_kind x) eqn:Hk.
      + eapply runs_sp_copy; [done..|]. intros Hi'. split; [done|apply evolves_add1].
      + eapply runs_wp_copy; [done..|]. intros Hi'. split; [done|apply evolves_add1].
    - (* weak *) apply runs_ends. eapply runs_with_loc; [done|done|]. intros l x Hl Hx. destruct (h_kind x) eqn:Hk; [|by apply runs_ret].
      apply runs_declare; [done|]. eapply runs_wp_copy; [done..|]. intros Hi'. split; [done|apply evolves_add1].
    - (* move *) apply runs_ends. eapply runs_with_loc; [done|done|]. intros l x Hl Hx. apply runs_declare; [done|]. destruct (h_kind x) eqn:Hk.
      + eapply runs_sp_move; [done..|]. intros Hi'. split; [done|]. by eapply evolves_put.
      + eapply runs_wp_move; [done..|]. intros Hi'. split; [done|]. by eapply evolves_put.
    - (* lock *) apply runs_ends. eapply runs_with_loc; [done|done|]. intros l x Hl Hx. destruct (h_kind x) eqn:Hk; [by apply runs_ret|].
      rbind. eapply runs_wp_expired; [done..|]. intros [] Hex; [by apply runs_ret|]. destruct Hex as [Hex _].
      destruct (Hex eq_refl) as (c & Hxc & Hp). apply runs_declare; [done|]. eapply runs_wp_lock; [done..|]. intros Hi'. split; [done|apply evolves_add1].
    - (* assign *) eapply ends_with_loc; [done|done|]. intros l x Hel Hl Hx. eapply ends_with_loc; [done|done|]. intros l' y _ Hl' Hy.
      destruct (h_kind x) eqn:Hkx, (h_kind y) eqn:Hky.
      + apply ends_bind. eapply (ends_sp_assign cf bl w l l' x y); [done|by intros Hbl; eapply (Hc Hbl)|done..|]. intros h' Hi' _ _ He. apply ends_ret. by apply after_evolves.
      + by apply ends_ret.
      + apply runs_ends. rbind. eapply (runs_wp_assign cf w l l' x y); [done..| |].
        * intros <-. assert (y = x) by (by eapply holds_inj). congruence.
        * intros h' Hi' _ _ He. apply runs_ret. by apply after_evolves.
      + apply runs_ends. rbind. eapply runs_wp_expired; [done..|]. intros ex Hex. destruct (decide _) as [|Hn]; [by apply runs_ret|].
        rbind. eapply (runs_wp_assign cf w l l' x y); [done..| |].
        * intros <-. assert (Hf : ex = false) by (destruct ex; [destruct Hn; done|done]). apply Hex in Hf as (c & Hxc & Hp).
          intros c' b Hc' Hb. assert (c' = c) as -> by congruence. left.
          fold h. fold h in Hb, Hp. rewrite (owners_use _ _ _ _ _ Hi eq_refl Hb). lia.
        * intros h' Hi' _ _ He. apply runs_ret. by apply after_evolves.
    - (* move assign *) eapply ends_with_loc; [done|done|]. intros l x Hel Hl Hx. unfold with_loc. estep. cbn [eval]. apply runs_ret.
      destruct (vars !! i) as [a|] eqn:Ha; [|by apply ends_ret]. simpl. apply elem_of_list_lookup_2 in Ha. apply Hv in Ha as [y Hy].
      assert (Hya : holds h (a, 0) y) by (unfold holds; simpl; by rewrite Hy).
      estep. eapply runs_get_handle; [exact Hya|]. destruct (h_kind x) eqn:Hkx; [|by apply ends_ret]. destruct (h_kind y) eqn:Hky; [|by apply ends_ret].
      apply ends_bind. eapply (ends_sp_move_assign cf bl w l (a, 0) x y); [done|by intros Hbl; eapply (Hc Hbl)|done..| |].
      + intros Hb. rewrite put_is_block in Hb. destruct Hb as [b Hb]. simpl in Hb. fold h in Hb. congruence.
      + intros h' Hi' _ _ _ He. apply ends_ret. by apply after_evolves.
    - (* swap *) apply runs_ends. eapply runs_with_loc; [done|done|]. intros l x Hl Hx. eapply runs_with_loc; [done|done|]. intros l' y Hl' Hy.
      destruct (h_kind x) eqn:Hkx, (h_kind y) eqn:Hky; try by apply runs_ret.
      rbind. eapply (runs_sp_swap w l l' x y); [done..|congruence|]. intros h' Hi' _ _ _ He. apply runs_ret. by apply after_evolves.
    - (* reset *) eapply ends_with_loc; [done|done|]. intros l x Hel Hl Hx. apply ends_bind. destruct (h_kind x) eqn:Hkx.
      + eapply (ends_sp_reset cf bl w l x); [done|by intros Hbl; eapply (Hc Hbl)|done..|]. intros h' Hi' _ _ He. apply ends_ret. by apply after_evolves.
      + apply runs_ends. eapply (runs_wp_reset cf w l x); [done..|]. intros h' Hi' _ _ He. apply ends_ret. by apply after_evolves.
    - (* drop *) destruct (vars !! i) as [a|] eqn:Ha; [|by apply ends_ret]. pose proof Ha as Hin. apply elem_of_list_lookup_2 in Hin.
      apply Hv in Hin as [x Hx]. apply ends_bind. eapply (ends_drop_var cf bl w a x); [done| |done|].
      { intros Hbl Hk. eapply (Hc Hbl (a, 0) x w); [|unfold holds; simpl; fold h; by rewrite Hx|done]. cbn [released]. by rewrite Ha. }
      intros h' Hi' Hs. apply ends_ret. simpl. fold h in Hs.
      assert (Ho : objects_kept h h').
      { eapply objects_kept_trans; [|apply (evolves_shrinks _ _ Hs)]. intros c b Hb. apply lookup_delete_Some in Hb as [_ Hb].
        exists b. split; [done|]. split; [done|]. apply object_kept_refl. }
      split; [|split].
      + split; [done|]. destruct Hv as [Hn Hok]. split.
        { pose proof (delete_Permutation _ _ _ Ha) as Hp. rewrite Hp in Hn. by apply NoDup_cons in Hn as [_ Hn]. }
        intros b. destruct (evolves_shrinks _ _ Hs) as [Hvs _]. rewrite <-Hvs. unfold is_var.
        destruct (decide (b = a)) as [->|Hnb].
        * rewrite lookup_delete. split; [|intros [? ?]; done]. intros Hin. exfalso.
          pose proof (delete_Permutation _ _ _ Ha) as Hp. rewrite Hp in Hn. apply NoDup_cons in Hn as [Hn _]. done.
        * rewrite lookup_delete_ne by done. rewrite <-(Hok b). pose proof (delete_Permutation _ _ _ Ha) as Hp. rewrite Hp at 2.
          rewrite elem_of_cons. naive_solver.
      + by apply kept_persists.
      + intros ? _. by apply objects_shared.
  Qed.

  Lemma exec_spops_good bl ops : forall vars w, good (w_heap w) vars -> (bl = false -> weak_safe_run cf ops vars w) ->
    ends bl (exec_spops cf ops vars) w (fun vars' w' => good (w_heap w') vars').
  Proof.
    induction ops as [|op ops IH]; intros vars w Hg Hs; cbn [exec_spops weak_safe_run] in *; [by apply ends_ret|].
    apply ends_bind. assert (Ha : ends bl (exec_spop cf op vars) w (fun vars' w' => exec_spop cf op vars w = Done vars' w' /\ after op (w_heap w) vars' (w_heap w'))).
    { pose proof (exec_spop_after bl op vars w Hg ltac:(intros Hbl; by apply Hs)) as Ha. unfold ends in *. by destruct (exec_spop cf op vars w). }
    eapply ends_mono; [exact Ha|]. intros vars' w' (He & Hg' & _). apply IH; [done|]. intros Hbl. destruct (Hs Hbl) as [_ Hr]. by rewrite He in Hr.
  Qed.
  Lemma no_weak_cycle_step op vars w : no_weak_cycle (w_heap w) -> weak_safe cf op vars w.
  Proof. intros Hc l x w' _ _ _. by apply no_weak_cycle_safe. Qed.
  Lemma exec_spops_shared ops : forall vars w, good (w_heap w) vars -> members_shared (w_heap w) -> Forall shared_members ops ->
    runs (exec_spops cf ops vars) w (fun vars' w' => good (w_heap w') vars' /\ members_shared (w_heap w')).
  Proof.
    induction ops as [|op ops IH]; intros vars w Hg Hm Hf; cbn [exec_spops] in *; [by apply runs_ret|].
    inversion Hf; subst. pose proof (members_shared_safe _ Hm) as Hc. rbind.
    eapply runs_mono; [apply ends_runs; apply (exec_spop_after false); [done|by intros _; apply no_weak_cycle_step]|].
    intros vars' w' (Hg' & _ & Hm'). apply IH; [done|by apply Hm'|done].
  Qed.

  (** ** The end of all scopes *)

  Lemma tc_unflip {A} (R : relation A) (x y : A) : tc (flip R) x y -> tc R y x.
  Proof. induction 1 as [x y Hxy|x y z Hxy _ IH]; [by apply tc_once|]. eapply tc_r; [exact IH|exact Hxy]. Qed.
  Definition fewer h h' : Prop := forall k c d, member h' k c d -> member h k c d.
  Lemma fewer_weak h h' : fewer h h' -> no_weak_cycle h -> no_weak_cycle h'.
  Proof.
    intros Hf Hc c d Hm Hr. apply (Hc c d); [by apply Hf|]. clear Hm. eapply rtc_subrel; [|exact Hr].
    intros a b [k Hk]. exists k. by apply Hf.
  Qed.
  Lemma fewer_owner h h' : fewer h h' -> no_owner_cycle h -> no_owner_cycle h'.
  Proof.
    intros Hf Hc c Hr. apply (Hc c). revert Hr. generalize c at 2 4. intros e. induction 1 as [a b Hab|a b e Hab _ IH].
    - apply tc_once. by apply Hf.
    - eapply tc_l; [by apply Hf|done].
  Qed.
  Lemma fewer_shrinks h h' : shrinks h h' -> fewer h h'.
  Proof.
    intros [_ A2] k c d (b' & v & hs & x & Hb & Hv & Hx). apply A2 in Hb as (b & Hb & _ & [Hq|Hq]); [|congruence].
    exists b, v, hs, x. split; [done|]. split; [congruence|done].
  Qed.
  Lemma fewer_delvar h a : fewer h (delete a h).
  Proof. intros k c d (b & v & hs & x & Hb & Hr). apply lookup_delete_Some in Hb as [_ Hb]. by exists b, v, hs, x. Qed.

  Lemma drop_all_good bl vars w : good (w_heap w) vars -> (bl = false -> weak_safe_run cf (drops vars) vars w) ->
    ends bl (drop_all cf vars) w (fun _ w' => good (w_heap w') [] /\ fewer (w_heap w) (w_heap w') /\ persists (w_heap w) (w_heap w')).
  Proof.
    assert (Hind : forall h0 vars w, good (w_heap w) vars -> (bl = false -> weak_safe_run cf (drops vars) vars w) ->
      fewer h0 (w_heap w) -> objects_kept h0 (w_heap w) ->
      ends bl (drop_all cf vars) w (fun _ w' => good (w_heap w') [] /\ fewer h0 (w_heap w') /\ objects_kept h0 (w_heap w'))).
    { clear vars w. intros h0 vars. induction vars as [|a vars IH]; intros w [Hi [Hn Hok]] Hc Hf Ho; cbn [drop_all]; [by apply ends_ret|].
      apply ends_bind. destruct (proj1 (Hok a)) as [x Hx]; [left|].
      assert (Hd : ends bl (drop_var cf a) w (fun _ w' => drop_var cf a w = Done tt w' /\ exists h', w' = set_heap h' w /\ inv h' [] [] /\ shrinks (delete a (w_heap w)) h')).
      { assert (Hd : ends bl (drop_var cf a) w (fun _ w' => exists h', w' = set_heap h' w /\ inv h' [] [] /\ shrinks (delete a (w_heap w)) h')).
        { eapply (ends_drop_var cf bl w a x); [done| |done|].
          - intros Hbl Hk. destruct (Hc Hbl) as [H0 _]. eapply (H0 (a, 0) x w); [done| |done]. unfold holds. simpl. by rewrite Hx.
          - intros h' Hi' Hs. by exists h'. }
        unfold ends in *. by destruct (drop_var cf a w) as [[] ?|]. }
      eapply ends_mono; [exact Hd|]. clear Hd. intros _ w' (He & h' & -> & Hi' & Hs).
      assert (Hf' : fewer (w_heap w) h') by (intros k c d Hm; eapply fewer_delvar; by eapply fewer_shrinks).
      apply NoDup_cons in Hn as [Hna Hn]. apply IH; simpl.
      - split; [done|]. split; [done|]. intros b. destruct (evolves_shrinks _ _ Hs) as [Hvs _]. rewrite <-Hvs. unfold is_var.
        destruct (decide (b = a)) as [->|Hnb].
        + rewrite lookup_delete. split; [done|intros [? ?]; done].
        + rewrite lookup_delete_ne by done. rewrite <-(Hok b), elem_of_cons. naive_solver.
      - intros Hbl. destruct (Hc Hbl) as [_ Hr]. cbn [exec_spop lookup list_lookup] in Hr. unfold bind in Hr. rewrite He in Hr. exact Hr.
      - intros k c d Hm. apply Hf. by apply Hf'.
      - eapply objects_kept_trans; [exact Ho|]. eapply objects_kept_trans; [|apply (evolves_shrinks _ _ Hs)].
        intros c b Hb. apply lookup_delete_Some in Hb as [_ Hb]. exists b. split; [done|]. split; [done|]. apply object_kept_refl. }
    intros Hg Hc. eapply ends_mono; [apply (Hind (w_heap w)); [done|done|by intros k c d|apply evolves_refl]|].
    intros [] w' (Hg' & Hf & Ho). split; [done|]. split; [done|]. by apply kept_persists.
  Qed.
  (** Without weak cycles every order of dropping is safe. *)
  Lemma drops_safe vars : forall w, good (w_heap w) vars -> no_weak_cycle (w_heap w) -> weak_safe_run cf (drops vars) vars w.
  Proof.
    induction vars as [|a vars IH]; intros w Hg Hc; [done|]. split; [by apply no_weak_cycle_step|].
    pose proof Hg as [Hi [Hn Hok]]. destruct (proj1 (Hok a)) as [x Hx]; [left|].
    pose proof (exec_spop_after false (SoDrop 0) (a :: vars) w Hg ltac:(intros _; by apply no_weak_cycle_step)) as Ha.
    assert (Hd : ends false (drop_var cf a) w (fun _ w' => fewer (w_heap w) (w_heap w'))).
    { eapply (ends_drop_var cf false w a x); [done|by intros _ _; apply no_weak_cycle_safe|done|].
      intros h' Hi' Hs k c d Hm. eapply fewer_delvar. by eapply fewer_shrinks. }
    unfold ends in *. cbn [exec_spop lookup list_lookup] in *. unfold bind in *. destruct (drop_var cf a w) as [[] w'|f]; [|done].
    apply IH; [apply Ha|]. by eapply fewer_weak.
  Qed.

  (** Without variables and ownership cycles there is nothing left. *)
  Lemma no_vars_empty h : good h [] -> no_owner_cycle h -> h = ∅.
  Proof.
    intros [Hi [_ Hok]] Hc.
    assert (Hpred : forall c, is_block h c -> exists d k, is_block h d /\ member h k d c).
    { intros c [b Hb]. pose proof Hi as [I1 I2 I3 I4 I5 I6 I7 I8]. pose proof (I7 _ _ Hb (not_elem_of_nil _)) as Hp.
      rewrite (I3 _ _ Hb), (I4 _ _ Hb) in Hp. rewrite app_nil_r in Hp.
      assert (Hr : exists k, 0 < refs k c (handles h)).
      { destruct (decide (0 < refs KShared c (handles h))); [by eexists|]. exists KWeak. lia. }
      destruct Hr as [k Hr]. apply refs_pos in Hr as (x & Hx & Hxr). apply elem_of_handles in Hx as (d & cell & Hd & Hx).
      destruct cell as [y|bd].
      - exfalso. assert (Hin : d ∈ @nil addr) by (apply Hok; by exists y). by apply elem_of_nil in Hin.
      - exists d, k. split; [by exists bd|]. simpl in Hx. destruct (cb_val bd) as [[v hs]|] eqn:Hv; [|by apply elem_of_nil in Hx].
        by exists bd, v, hs, x. }
    assert (Hown : forall d k c, member h k d c -> exists e, member h KShared e d).
    { intros d k c (b & v & hs & x & Hb & Hv & _). pose proof Hi as [I1 I2 I3 I4 I5 I6 I7 I8].
      assert (Hu : (0 < cb_use b)%Z) by (apply (I5 _ _ Hb); rewrite Hv; by eexists).
      rewrite (I3 _ _ Hb), app_nil_r in Hu. assert (Hr : 0 < refs KShared d (handles h)) by lia.
      apply refs_pos in Hr as (y & Hy & Hyr). apply elem_of_handles in Hy as (e & cell & He & Hy).
      destruct cell as [z|be].
      - exfalso. assert (Hin : e ∈ @nil addr) by (apply Hok; by exists z). by apply elem_of_nil in Hin.
      - exists e. simpl in Hy. destruct (cb_val be) as [[v' hs']|] eqn:Hv'; [|by apply elem_of_nil in Hy]. by exists be, v', hs', y. }
    assert (Hno : forall d, (exists k c, member h k d c) -> False).
    { intros d Hd.
      assert (Hsn : sn (flip (member h KShared)) d).
      { apply tc_finite_sn.
        - intros c Hcc. apply (Hc c). by apply tc_unflip in Hcc.
        - exists (elements (dom h)). intros e He. apply elem_of_elements, elem_of_dom. apply tc_unflip in He.
          assert (Hm : exists c, member h KShared e c) by (inversion He; by eexists).
          destruct Hm as (c & b & v & hs & x & Hb & _). by eexists. }
      induction Hsn as [d _ IH]. destruct Hd as (k & c & Hm). destruct (Hown d k c Hm) as [e He].
      apply (IH e); [exact He|]. by exists KShared, d. }
    apply map_empty. intros a. destruct (h !! a) as [[x|b]|] eqn:E; [| |done].
    - assert (Hin : a ∈ @nil addr) by (apply Hok; by exists x). by apply elem_of_nil in Hin.
    - destruct (Hpred a) as (d & k & _ & Hm); [by exists b|]. destruct (Hno d). by exists k, a.
  Qed.

  (** ** What the user sees *)

  Lemma reachable_rooted h c : reachable h c <-> rooted h c.
  Proof.
    split.
    - induction 1 as [a x c Ha Hx|d c Hd IH Hm]; [by eapply reach_var|]. by eapply reach_mem.
    - induction 1 as [a x c Ha Hx|d c Hd IH _ Hm]; [by eapply reachable_var|]. by eapply reachable_member.
  Qed.
  Lemma stored_lok h l x : stored h l x -> lok h l.
  Proof. intros [_ Hl] Hb. apply reachable_rooted. by apply Hl. Qed.

  Lemma shows w l x : inv (w_heap w) [] [] -> holds (w_heap w) l x -> handle_shows cf w l x.
  Proof.
    intros Hi Hx.
    assert (Hget : get_handle l w = Done x w).
    { assert (Hr : runs (get_handle l) w (fun y w' => y = x /\ w' = w)) by (by eapply runs_get_handle).
      destruct Hr as (y & w' & Hr & -> & ->). done. }
    pose proof (holds_ptr _ _ _ _ _ Hi Hx) as Hp. unfold handle_shows. cbv zeta. set (n := match h_rc x with Some c => owners (w_heap w) c | None => 0 end).
    assert (Hn : sp_use_count cf l w = Done (Z.of_nat n) w).
    { assert (Hr : runs (sp_use_count cf l) w (fun m w' => m = Z.of_nat n /\ w' = w)).
      { eapply runs_use_count; [done..|]. split; [|done]. unfold n. by destruct (h_rc x). }
      destruct Hr as (m & w' & Hr & -> & ->). done. }
    split_and!.
    - unfold sp_get, bind. rewrite Hget, Hp. done.
    - done.
    - unfold sp_unique, bind. rewrite Hn. unfold ret. f_equal. apply bool_decide_ext. lia.
    - unfold sp_bool, bind. rewrite Hn. unfold ret. f_equal. apply bool_decide_ext. lia.
    - intros c Hk Hc. destruct (holds_inv_block _ _ _ _ Hi Hx Hc) as (b & Hb & _ & _ & Hu). specialize (Hu Hk).
      assert (Hv : is_Some (cb_val b)) by (by apply (i_val _ _ _ Hi _ _ Hb)). destruct Hv as [[v hs] Hv].
      split; [rewrite (owners_use _ _ _ _ _ Hi eq_refl Hb) in Hu; lia|]. exists v, hs.
      assert (Hr : runs (sp_deref cf l) w (fun r w' => r = (c, v, hs) /\ w' = w)).
      { unfold sp_deref. rbind. eapply runs_get_handle; [exact Hx|]. rewrite Hp, Hc. rbind. apply runs_assert; [by apply bool_decide_eq_true|].
        rbind. eapply runs_get_block; [done|]. rewrite Hv. by apply runs_ret. }
      destruct Hr as (r & w' & Hr & -> & ->). done.
  Qed.

  (** Without ownership cycles everything alive is reachable from a variable. *)
  Lemma alive_reachable h c : inv h [] [] -> no_owner_cycle h -> alive h c -> reachable h c.
  Proof.
    intros Hi Hc. assert (Hsn : sn (flip (member h KShared)) c).
    { apply tc_finite_sn.
      - intros d Hd. apply (Hc d). by apply tc_unflip in Hd.
      - exists (elements (dom h)). intros e He. apply elem_of_elements, elem_of_dom. apply tc_unflip in He.
        assert (Hm : exists c, member h KShared e c) by (inversion He; by eexists).
        destruct Hm as (c' & b & v & hs & x & Hb & _). by eexists. }
    induction Hsn as [c _ IH]. intros (b & Hb & Hv). pose proof Hi as [I1 I2 I3 I4 I5 I6 I7 I8].
    apply (I5 _ _ Hb) in Hv. rewrite (I3 _ _ Hb), app_nil_r in Hv. assert (Hr : 0 < refs KShared c (handles h)) by lia.
    apply refs_pos in Hr as (x & Hx & Hxr). apply elem_of_handles in Hx as (a & cell & Ha & Hx). destruct cell as [y|bd]; simpl in Hx.
    - apply elem_of_list_singleton in Hx as ->. by eapply reachable_var.
    - destruct (cb_val bd) as [[v hs]|] eqn:Hbd; [|by apply elem_of_nil in Hx].
      assert (Hm : member h KShared a c) by (by exists bd, v, hs, x). eapply reachable_member; [|exact Hm].
      apply IH; [exact Hm|]. exists bd. split; [done|]. rewrite Hbd. by eexists.
  Qed.

  (** ** Constructors into a new variable *)

  Lemma dom_put h l x : dom (put h l x) = dom h.
  Proof. unfold put. apply dom_alter_L. Qed.
  Lemma dom_add1 h k r : dom (add1 h k r) = dom h.
  Proof. unfold add1. destruct r; [apply dom_alter_L|done]. Qed.
  Lemma holds_newvar h a x l y : h !! a = None -> holds h l y -> holds (<[a:=SVar x]> h) l y.
  Proof.
    intros Ha Hl. unfold holds in *. destruct (decide (l.1 = a)) as [He|Hn]; [by rewrite He, Ha in Hl|]. by rewrite lookup_insert_ne.
  Qed.
  Lemma runs_ctor w (m : M (scell V) handle) h1 x ls (Q : _ -> W -> Prop) :
    runs m w (fun y w' => y = x /\ w' = set_heap h1 w) -> inv h1 [x] [] -> others_keep (w_heap w) h1 ls -> evolves (w_heap w) h1 ->
    dom h1 = dom (w_heap w) ->
    (forall a h', w_heap w !! a = None -> h1 !! a = None -> h' = <[a:=SVar x]> h1 -> inv h' [] [] -> others_keep (w_heap w) h' ((a, 0) :: ls) -> objects_kept (w_heap w) h' ->
       Q a (set_heap h' w)) ->
    runs (let! y := m in make_var y) w Q.
  Proof.
    intros Hm Hi [K1 K2] He Hd HQ. rbind. eapply runs_mono; [exact Hm|]. intros y w' [-> ->]. cbv beta. apply runs_new_local. simpl. intros a Ha.
    assert (Ha0 : w_heap w !! a = None) by (apply not_elem_of_dom; rewrite <-Hd; by apply not_elem_of_dom).
    apply (HQ a (<[a:=SVar x]> h1)); [done|done|done|by apply inv_newvar| |].
    - split.
      + intros l y Hl Hy. apply K1; [set_solver|]. unfold holds in *. destruct (decide (l.1 = a)) as [Hq|Hn].
        * exfalso. rewrite Hq, lookup_insert in Hy. destruct Hy as [H0 _]. destruct l; simpl in *; subst. set_solver.
        * by rewrite lookup_insert_ne in Hy.
      + intros b y Hb Hby. rewrite lookup_insert_ne by congruence. apply K2; [set_solver|done].
    - eapply objects_kept_trans; [apply He|]. by apply objects_newvar.
  Qed.

  Lemma good_start orc e na nc : good (w_heap (World ∅ orc e na nc : W)) [].
  Proof.
    split.
    - unfold inv. assert (Hh : handles (∅ : H) = []) by done. simpl. rewrite Hh. simpl. split; try set_solver; intros; simplify_map_eq.
    - split; [constructor|]. intros a. split; [set_solver|]. intros [x Hx]. simpl in Hx. by rewrite lookup_empty in Hx.
  Qed.
  Lemma members_start orc e na nc : members_shared (w_heap (World ∅ orc e na nc : W)).
  Proof. intros c b v hs Hb. simpl in Hb. by rewrite lookup_empty in Hb. Qed.
End hist.
