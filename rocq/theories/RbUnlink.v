(** * Taking a node out of the tree *)
From Verif Require Export RbLink.

Section unlink.
  Context {V : Type} {L : limit} (cf : cfg V) (al : alloc_id) (hdr : addr).
  Notation H := (gmap addr (tcell V)).
  Notation W := (world (tcell V)).
  Implicit Types h hf : H.
  Implicit Types w : W.
  Implicit Types t s : tree V.
  Implicit Types lm rm : addr.
  Implicit Types n : nat.
  Implicit Types k : @ctx V.
  Notation tin := (tin al hdr).
  Notation tat := (tree_at al).
  Notation addrs t := (elems t).*1.
  Notation caddrs k := ((cpre k).*1 ++ (cpost k).*1).

  Lemma tin_shrink lm rm n h h' hf k t t' z cz :
    tin lm rm n h hf (plug k t) -> ctx_at al hdr lm rm n h' k (root t') -> tat h' (cpar hdr k) t' ->
    addrs t ≡ₚ z :: addrs t' -> h' !! z = Some cz ->
    (forall a, a ∉ hdr :: addrs (plug k t) -> h' !! a = h !! a) ->
    tin lm rm n h' (<[z := cz]> hf) (plug k t').
  Proof.
    intros [Hh Ht Hn Ho Hd] [Hc1 Hc2] Ht' Hp Hz Hout.
    assert (addrs (plug k t) ≡ₚ z :: addrs (plug k t')) as Hpp.
    { rewrite !addrs_plug, Hp. perm_solve. }
    rewrite Hpp in Hn. rewrite !NoDup_cons in Hn. destruct Hn as (Hn1 & Hn2 & Hn3).
    assert (z <> hdr) by set_solver.
    split.
    - by rewrite root_plug.
    - apply tat_plug. done.
    - apply NoDup_cons. set_solver.
    - intros a Ha. destruct (decide (a = z)) as [->|Hz']; [by rewrite lookup_insert|].
      assert (a ∉ hdr :: addrs (plug k t)) as Ha' by (rewrite Hpp; set_solver).
      rewrite lookup_insert_ne, Hout by done. by apply Ho.
    - intros a Ha. rewrite lookup_insert_ne by set_solver. apply Hd. rewrite Hpp. set_solver.
  Qed.

  Lemma tail_app {A} (X Y : list A) p : X <> [] -> Y <> [] -> head (X ++ p :: Y) = head (X ++ Y) /\ last (X ++ p :: Y) = last (X ++ Y).
  Proof.
    intros HX HY. destruct X as [|x X]; [done|]. split; [done|].
    rewrite !last_app, last_cons. destruct (last Y) eqn:E; [done|]. apply last_None in E. done.
  Qed.

  (** at most one child *)
  Lemma unlink_one n hf k cz z vz l r w (Q : option addr * addr -> W -> Prop) :
    let E := elems (plug k (Node cz z vz l r)) in
    let x := match l with Leaf => r | _ => l end in
    let E' := elems (plug k x) in
    tin (first_of hdr E) (last_of hdr E) n (w_heap w) hf (plug k (Node cz z vz l r)) ->
    l = Leaf \/ r = Leaf -> height x < rounds (size (w_heap w)) ->
    (forall h', tin (first_of hdr E') (last_of hdr E') n h'
                  (<[z := ncell al cz (cpar hdr k) (root l) (root r) vz]> hf) (plug k x) ->
       Q (root x, cpar hdr k) (set_heap h' w)) ->
    runs (erase_unlink cf z hdr) w Q.
  Proof.
    intros E x E' Ht Hlr Hfuel HQ. unfold erase_unlink.
    set (lm := first_of hdr E) in *. set (rm := last_of hdr E) in *.
    pose proof (tin_node al hdr _ _ _ _ _ _ _ _ _ _ _ Ht) as Hz.
    rbind. eapply (runs_get_child al DL); [exact Hz|]. rbind. eapply (runs_get_child al DR); [exact Hz|].
    match goal with |- runs (match _ with Some zl => _ | None => ?prog end) _ _ =>
      assert (runs prog w Q) as Hrun; [|by destruct l, r; destruct Hlr] end.
    assert (match root l with Some _ => root l | None => root r end = root x) as Hroot by (by destruct l).
    cbv zeta. rewrite Hroot. clear Hroot.
    (* facts about the cells *)
    pose proof (tin_ctx al hdr _ _ _ _ _ _ _ Ht) as Hctx. simpl root in Hctx.
    pose proof (tin_sub al hdr _ _ _ _ _ _ _ Ht) as (Hz' & Hl & Hr).
    pose proof (tin_nodup_ctx al hdr _ _ _ _ _ _ _ Ht) as Hnc.
    assert (tat (w_heap w) z x) as Hx by (unfold x; by destruct l).
    assert (elems (Node cz z vz l r) = elems l ++ (z, vz) :: elems r) as HE by done.
    assert (elems x = elems l ++ elems r) as HEx.
    { unfold x. destruct l; [done|]. destruct Hlr as [|Hr']; [done|]. rewrite Hr'. simpl. by rewrite app_nil_r. }
    assert (addrs (Node cz z vz l r) ≡ₚ z :: addrs x) as Hp.
    { rewrite HE, HEx, !fmap_app. csimpl. perm_solve. }
    assert (exists f : addr -> nat,
      (forall a, a ∈ hdr :: caddrs k -> f a = 0) /\ f z = 1 /\ (forall a, a ∈ addrs x -> f a = 2) /\ NoDup (addrs x))
      as (f & F0 & F1 & F2 & Hnx).
    { pose proof (tin_nodup al hdr _ _ _ _ _ _ Ht) as Hn.
      eapply (nodup_perm _ (concat [hdr :: caddrs k; [z]; addrs x])) in Hn.
      - destruct (nodup_tags 0 _ Hn) as (f & G0 & G1 & G2 & _). exists f. split_and!; [done|apply G1; set_solver|done|].
        simpl in Hn. rewrite app_comm_cons in Hn. apply NoDup_app in Hn as (_ & _ & Hn). apply NoDup_cons in Hn as [_ Hn].
        by rewrite app_nil_r in Hn.
      - rewrite addrs_plug, Hp. simpl. perm_solve. }
    pose proof (cpar_fact hdr f 0 k F0) as Fp.
    rbind. eapply (runs_parent_of al DL); [exact Hz|].
    rbind. eapply (runs_repar al z (cpar hdr k) x); [done|done|].
    set (h1 := repar al (cpar hdr k) x (w_heap w)).
    assert (ctx_at al hdr lm rm n h1 k (Some z)) as Hctx1.
    { eapply ctx_at_ext; [| |exact Hctx].
      - unfold h1. apply repar_ne. intros Hin. apply F2 in Hin. rewrite F0 in Hin by set_solver. done.
      - intros a Ha. unfold h1. apply repar_ne. intros Hin. apply F2 in Hin. rewrite F0 in Hin by set_solver. done. }
    assert (h1 !! z = Some (ncell al cz (cpar hdr k) (root l) (root r) vz)) as Hz1.
    { unfold h1. rewrite repar_ne by tag_solve. done. }
    rbind. eapply (runs_replace al hdr lm rm n DL k z (root x) _ h1); [done|exact Hctx1| |exact Hz1|done|].
    { rewrite NoDup_cons in Hnc; rewrite !NoDup_cons. split_and!; [|intros Hin|tauto].
      - apply not_elem_of_cons. split; [|tauto]. intros ->. rewrite F0 in F1 by set_solver. done.
      - rewrite F0 in F1 by set_solver. done. }
    set (h2 := <[cpar hdr k := _]> h1).
    set (hf' := <[z := ncell al cz (cpar hdr k) (root l) (root r) vz]> hf).
    assert (h2 !! z = Some (ncell al cz (cpar hdr k) (root l) (root r) vz)) as Hz2.
    { unfold h2. rewrite lookup_insert_ne by tag_solve. done. }
    assert (tin lm rm n h2 hf' (plug k x)) as Ht2.
    { eapply tin_shrink; [exact Ht| | |exact Hp|exact Hz2|].
      - by eapply ctx_at_upd.
      - eapply (tat_ext al h1); [|by eapply repar_tat].
        intros a Ha. unfold h2. rewrite lookup_insert_ne by tag_solve. done.
      - intros a Ha. rewrite addrs_plug, Hp in Ha. unfold h2, h1.
        rewrite lookup_insert_ne; [apply repar_ne; set_solver|].
        intros <-. pose proof (cpar_mem hdr k). set_solver. }
    assert (z <> hdr) as Hzh by (intros ->; rewrite F0 in F1 by set_solver; done).
    assert (forall lm' rm' h', tin lm' rm' n h' hf' (plug k x) -> height x < rounds (size h')) as Hfit.
    { intros lm' rm' h' Ht'. enough (size h' = size (w_heap w)) as -> by done.
      rewrite (tin_size al hdr _ _ _ _ _ _ Ht'), (tin_size al hdr _ _ _ _ _ _ Ht).
      unfold hf'. rewrite map_size_insert_None.
      - rewrite !elems_plug, !app_length, HE, HEx, !app_length. simpl. lia.
      - apply (tin_none al hdr _ _ _ _ _ _ Ht). rewrite addrs_plug, Hp. set_solver. }
    (* the two ends *)
    rbind. eapply (runs_get_lm hdr); [exact (tin_hdr al hdr _ _ _ _ _ _ Ht2)|].
    assert (forall Q' : unit -> W -> Prop,
      (forall h3, tin (first_of hdr E') rm n h3 hf' (plug k x) -> h3 !! z = Some (ncell al cz (cpar hdr k) (root l) (root r) vz) ->
         Q' tt (set_heap h3 w)) ->
      runs (if decide (Some lm = Some z) then
               let! r := get_right z in
               match r with
               | None => let! p := get_parent z in set_left hdr p
               | Some _ => let! m := s_minimum cf (root x) in set_left hdr (Some m)
               end
             else ret tt) (set_heap h2 w) Q') as Hleft.
    { intros Q' HQ'. destruct (decide (Some lm = Some z)) as [[= Hlm]|Hlm].
      - rbind. eapply (runs_get_child al DR); [exact Hz2|].
        (* everything left of z is empty *)
        assert (cpre k = [] /\ l = Leaf) as [Hk0 Hl0].
        { unfold lm in Hlm. destruct (first_mem hdr _ _ Hlm Hzh) as (v' & Y & HY).
          pose proof (tin_nodup al hdr _ _ _ _ _ _ Ht) as Hn. apply NoDup_cons in Hn as [_ Hn].
          unfold E in *. rewrite elems_plug in *. simpl in *.
          destruct (cpre k) as [|q K] eqn:EK.
          - split; [done|]. destruct l as [|cl al' vl ll lr]; [done|]. exfalso. simpl in HY, Hn.
            destruct (elems ll) as [|q K] eqn:EL; simpl in HY; simplify_eq/=; rewrite ?fmap_app in Hn; csimpl in Hn;
              repeat (rewrite fmap_app in Hn; csimpl in Hn);
              apply NoDup_cons in Hn as [Hn _]; apply Hn; set_solver.
          - exfalso. simpl in HY. simplify_eq. csimpl in Hn. repeat (rewrite fmap_app in Hn; csimpl in Hn).
            apply NoDup_cons in Hn as [Hn _]. apply Hn. set_solver. }
        assert (first_of hdr E' = match root r with None => cpar hdr k | Some _ => first_of hdr (elems x) end) as HE'.
        { unfold E'. rewrite elems_plug, Hk0, HEx, Hl0. simpl. destruct r as [|cr ar vr rl rr]; simpl.
          - by apply cpre_nil_first.
          - apply first_app. by destruct (elems rl). }
        destruct (root r) as [ar|] eqn:Er.
        + rbind. eapply (s_minimum_spec cf al hdr _ _ _ _ k x); [exact Ht2| |by eapply Hfit|].
          { unfold x. rewrite Hl0. by destruct r. }
          eapply (runs_set_lm hdr); [exact (tin_hdr al hdr _ _ _ _ _ _ Ht2)|]. simpl. unfold set_heap; simpl.
          rewrite <-HE'. eapply HQ'; [by eapply tin_sethdr|]. by rewrite lookup_insert_ne.
        + rbind. eapply (runs_get_parent al DL); [exact Hz2|].
          eapply (runs_set_lm hdr); [exact (tin_hdr al hdr _ _ _ _ _ _ Ht2)|]. simpl. unfold set_heap; simpl.
          rewrite <-HE'. eapply HQ'; [by eapply tin_sethdr|]. by rewrite lookup_insert_ne.
      - apply runs_ret. assert (first_of hdr E' = lm) as Heq.
        { unfold E', lm, E. rewrite !elems_plug, HEx. simpl.
          destruct (cpre k ++ elems l) as [|q K] eqn:EK.
          - exfalso. apply Hlm. unfold lm, E. rewrite elems_plug. simpl.
            destruct (cpre k); [|done]. simpl in EK. rewrite EK. done.
          - rewrite <-!(assoc_L (++)), !(assoc_L (++) (cpre k)), EK. done. }
        eapply HQ'; [|done]. by rewrite Heq. }
    rbind. apply Hleft. clear Hleft. intros h3 Ht3 Hz3.
    rbind. eapply (runs_get_rm hdr); [exact (tin_hdr al hdr _ _ _ _ _ _ Ht3)|].
    rbind.
    assert (forall Q' : unit -> W -> Prop,
      (forall h4, tin (first_of hdr E') (last_of hdr E') n h4 hf' (plug k x) -> Q' tt (set_heap h4 w)) ->
      runs (if decide (Some rm = Some z) then
               let! l := get_left z in
               match l with
               | None => let! p := get_parent z in set_right hdr p
               | Some _ => let! m := s_maximum cf (root x) in set_right hdr (Some m)
               end
             else ret tt) (set_heap h3 w) Q') as Hright.
    { intros Q' HQ'. destruct (decide (Some rm = Some z)) as [[= Hrm]|Hrm].
      - rbind. eapply (runs_get_child al DL); [exact Hz3|].
        (* everything right of z is empty *)
        assert (cpost k = [] /\ r = Leaf) as [Hk0 Hr0].
        { unfold rm in Hrm. destruct (last_mem hdr _ _ Hrm Hzh) as (v' & Y & HY).
          pose proof (tin_nodup al hdr _ _ _ _ _ _ Ht) as Hn. apply NoDup_cons in Hn as [_ Hn].
          unfold E in *. rewrite elems_plug in *. simpl in *.
          assert (elems r ++ cpost k = []) as Hnil.
          { destruct (elems r ++ cpost k) as [|q K _] eqn:EK using rev_ind; [done|]. exfalso.
            rewrite <-(assoc_L (++)) in HY, Hn. simpl in HY, Hn. rewrite EK in HY, Hn.
            rewrite app_comm_cons in HY. rewrite !(assoc_L (++)) in HY. apply app_inj_tail in HY as [_ ->].
            repeat (rewrite fmap_app in Hn; csimpl in Hn).
            apply NoDup_app in Hn as (_ & _ & Hn). apply NoDup_app in Hn as (_ & _ & Hn).
            apply NoDup_cons in Hn as [Hn _]. apply Hn. set_solver. }
          apply app_nil in Hnil as [Hr' ->]. split; [done|]. destruct r as [|? ? ? rl rr]; [done|]. simpl in Hr'. by destruct (elems rl). }
        assert (last_of hdr E' = match root l with None => cpar hdr k | Some _ => last_of hdr (elems x) end) as HE'.
        { unfold E'. rewrite elems_plug, Hk0, HEx, Hr0, !app_nil_r. simpl. destruct l as [|cl al' vl ll lr]; simpl.
          - rewrite ?app_nil_r. by apply cpost_nil_last.
          - rewrite ?app_nil_r. apply last_app'. by destruct (elems ll). }
        destruct (root l) as [ar|] eqn:Er.
        + rbind. eapply (s_maximum_spec cf al hdr _ _ _ _ k x); [exact Ht3| |by eapply Hfit|].
          { unfold x. by destruct l. }
          eapply (runs_set_rm hdr); [exact (tin_hdr al hdr _ _ _ _ _ _ Ht3)|]. simpl. unfold set_heap; simpl.
          rewrite <-HE'. eapply HQ'. by eapply tin_sethdr.
        + rbind. eapply (runs_get_parent al DL); [exact Hz3|].
          eapply (runs_set_rm hdr); [exact (tin_hdr al hdr _ _ _ _ _ _ Ht3)|]. simpl. unfold set_heap; simpl.
          rewrite <-HE'. eapply HQ'. by eapply tin_sethdr.
      - apply runs_ret. assert (last_of hdr E' = rm) as Heq.
        { unfold E', rm, E. rewrite !elems_plug, HEx. simpl.
          destruct (elems r ++ cpost k) as [|q K] eqn:EK.
          - exfalso. apply Hrm. unfold rm, E. rewrite elems_plug. simpl.
            rewrite <-(assoc_L (++)). simpl. rewrite EK. rewrite (assoc_L (++)). by rewrite last_snoc'.
          - rewrite <-!(assoc_L (++)). simpl. rewrite EK.
            rewrite !(assoc_L (++) (cpre k)). rewrite !last_app' by done.
            change ((z, vz) :: q :: K) with ([(z, vz)] ++ q :: K). by rewrite last_app' by done. }
        eapply HQ'. by rewrite Heq. }
    apply Hright. intros h4 Ht4. apply runs_ret. unfold set_heap; simpl. apply HQ. exact Ht4.
  Qed.
  Lemma fr_at_upd h p0 d c a v s k o o' :
    NoDup (caddrs (Frame d c a v s k)) ->
    fr_at al h p0 (Frame d c a v s k) o ->
    fr_at al (<[a := ncellD al d c (cpar p0 k) o' (root s) v]> h) p0 (Frame d c a v s k) o'.
  Proof.
    intros Hn (Ha & Hs & Hk).
    eapply (nodup_perm _ (concat [[a]; addrs s; caddrs k])) in Hn; cycle 1.
    { destruct d; simpl; rewrite ?fmap_app; csimpl; rewrite ?fmap_app; perm_solve. }
    destruct (nodup_tags 0 _ Hn) as (f & F0 & F1 & F2 & _). tag_facts. simpl. split_and!.
    - by rewrite lookup_insert.
    - eapply tat_ext; [|done]. intros x Hx. rewrite lookup_insert_ne by tag_solve. done.
    - eapply (fr_ext al hdr); [|done]. intros x Hx. rewrite lookup_insert_ne by tag_solve. done.
  Qed.

  (** two children: the next element takes the place *)
  Lemma unlink_two n hf k cz z vz l kr cy y vy xr w (Q : option addr * addr -> W -> Prop) :
    let r := plug kr (Node cy y vy Leaf xr) in
    let E := elems (plug k (Node cz z vz l r)) in
    let t' := Node cz y vy l (plug kr xr) in
    let E' := elems (plug k t') in
    tin (first_of hdr E) (last_of hdr E) n (w_heap w) hf (plug k (Node cz z vz l r)) ->
    l <> Leaf -> cpre kr = [] -> height r < rounds (size (w_heap w)) ->
    (forall h', tin (first_of hdr E') (last_of hdr E') n h'
                  (<[z := ncell al cy (cpar hdr k) (root l) (root r) vz]> hf) (plug k t') ->
       Q (root xr, cpar y kr) (set_heap h' w)) ->
    runs (erase_unlink cf z hdr) w Q.
  Proof.
    intros r E t' E' Ht Hl0 Hkr Hfuel HQ. unfold erase_unlink.
    assert (first_of hdr E' = first_of hdr E /\ last_of hdr E' = last_of hdr E) as [Hfi Hla].
    { unfold first_of, last_of, E', E, t', r.
      assert (exists X Y, X <> [] /\ Y <> [] /\ elems (plug k (Node cz y vy l (plug kr xr))) = X ++ Y /\
        elems (plug k (Node cz z vz l (plug kr (Node cy y vy Leaf xr)))) = X ++ (z, vz) :: Y) as (X & Y & HX & HY & -> & ->).
      { exists (cpre k ++ elems l), ((y, vy) :: elems xr ++ cpost kr ++ cpost k).
        split_and!; [|done| |].
        - destruct l as [|? ? ? ll lr]; [done|]. destruct (cpre k); [|done]. simpl. by destruct (elems ll).
        - rewrite elems_plug. simpl. rewrite elems_plug, Hkr. repeat (simpl; rewrite <-(assoc_L (++))). done.
        - rewrite elems_plug. simpl. rewrite elems_plug, Hkr. repeat (simpl; rewrite <-(assoc_L (++))). done. }
      rewrite !fmap_app. csimpl. assert (X.*1 <> [] /\ Y.*1 <> []) as [HX' HY'] by (split; [by destruct X|by destruct Y]).
      destruct (tail_app X.*1 Y.*1 z HX' HY') as [-> ->]. done. }
    rewrite Hfi, Hla in HQ. clear Hfi Hla.
    set (lm := first_of hdr E) in *. set (rm := last_of hdr E) in *.
    pose proof (tin_node al hdr _ _ _ _ _ _ _ _ _ _ _ Ht) as Hz.
    rbind. eapply (runs_get_child al DL); [exact Hz|]. rbind. eapply (runs_get_child al DR); [exact Hz|].
    assert (exists cl zl vl ll lr, l = Node cl zl vl ll lr) as (cl & zl & vl & ll & lr & El) by (destruct l; [done|eauto 10]).
    clear Hl0.
    assert (root l = Some zl) as Hrl by (by rewrite El).
    assert (exists zr, root r = Some zr /\ (kr <> Top -> root (plug kr xr) = Some zr) /\
       (kr = Top -> zr = y) /\ (kr <> Top -> zr ∈ caddrs kr)) as (zr & Hrr & Hrr' & HzrT & HzrF).
    { unfold r. destruct kr as [|d1 c1 a1 v1 s1 k1].
      - by exists y.
      - destruct (croot_in d1 c1 a1 v1 s1 k1 (Some y)) as (b & Hb & Hin). exists b.
        rewrite !root_plug. simpl root. rewrite Hb. split_and!; [done| |done|done].
        intros _. exact Hb. }
    rewrite Hrl, Hrr. 
    pose proof (tin_ctx al hdr _ _ _ _ _ _ _ Ht) as Hctx. simpl root in Hctx.
    pose proof (tin_sub al hdr _ _ _ _ _ _ _ Ht) as (Hz' & Hl & Hr). fold (tat (w_heap w)) in Hl, Hr.
    pose proof (tin_nodup_ctx al hdr _ _ _ _ _ _ _ Ht) as Hnc.
    assert (hdr :: addrs (plug k (Node cz z vz l r)) ≡ₚ
      concat [hdr :: caddrs k; [z]; [y]; addrs l; caddrs kr; addrs xr]) as Hperm.
    { rewrite addrs_plug. csimpl. rewrite fmap_app. csimpl. unfold r. rewrite addrs_plug. csimpl. perm_solve. }
    assert (exists f : addr -> nat,
      (forall a, a ∈ hdr :: caddrs k -> f a = 0) /\ f z = 1 /\ f y = 2 /\ (forall a, a ∈ addrs l -> f a = 3) /\
      (forall a, a ∈ caddrs kr -> f a = 4) /\ (forall a, a ∈ addrs xr -> f a = 5) /\
      NoDup (addrs l) /\ NoDup (caddrs kr) /\ NoDup (addrs xr) /\ NoDup (caddrs kr ++ addrs xr))
      as (f & F0 & F1 & F2 & F3 & F4 & F5 & Hnl & Hnkr & Hnxr & Hnkx).
    { pose proof (tin_nodup al hdr _ _ _ _ _ _ Ht) as Hn. rewrite Hperm in Hn.
      destruct (nodup_tags 0 _ Hn) as (f & G0 & G1 & G2 & G3 & G4 & G5 & _).
      simpl in Hn. rewrite app_comm_cons, app_nil_r in Hn.
      apply NoDup_app in Hn as (_ & _ & Hn). apply NoDup_cons in Hn as [_ Hn]. apply NoDup_cons in Hn as [_ Hn].
      apply NoDup_app in Hn as (Hn1 & _ & Hn2). pose proof Hn2 as Hn2'. apply NoDup_app in Hn2' as (Hn3 & _ & Hn4).
      exists f. split_and!; [done|apply G1; set_solver|apply G2; set_solver|done..]. }
    pose proof (cpar_fact hdr f 0 k F0) as Fp.
    assert (f hdr = 0) as Fh by (apply F0; set_solver).
    unfold r in Hr. apply tat_plug in Hr as [Hkrat Hy]. simpl root in Hkrat. destruct Hy as (Hy & _ & Hxr).
    (* finding y *)
    rbind. apply runs_tree_fuel. rbind.
    assert (runs (minimum_loop (rounds (size (w_heap w))) zr) w (fun y' w' => y' = y /\ w' = w)) as Hmin.
    { assert (exists cr vr rl rr, r = Node cr zr vr rl rr) as (cr & vr & rl & rr & Er).
      { destruct r as [|cr zr' vr rl rr]; [done|]. injection Hrr as ->. eauto. }
      rewrite Er in Ht.
      eapply (minimum_spec al hdr _ _ _ _ _ (Frame DR cz z vz l k)); [exact Ht| |].
      - rewrite Er in Hfuel. simpl in Hfuel. lia.
      - split; [|done]. rewrite <-Er. unfold r. rewrite elems_plug, Hkr. done. }
    eapply runs_mono; [exact Hmin|]. cbv beta. intros ? ? [-> ->]. clear Hmin.
    rbind. eapply (runs_get_child al DR); [exact Hy|].
    (* l gets its new parent *)
    rbind. eapply (runs_set_parent al DL).
    { pose proof Hl as Hl'. rewrite El in Hl'. destruct Hl' as [Hl' _]. exact Hl'. }
    set (h1 := <[zl := _]> (w_heap w)).
    assert (h1 = repar al y l (w_heap w)) as Eh1 by (by rewrite El).
    assert (forall a, a ∉ addrs l -> h1 !! a = w_heap w !! a) as Hh1.
    { intros a Ha. rewrite Eh1. by apply repar_ne. }
    assert (tat h1 y l) as Hl1. { rewrite Eh1. by eapply repar_tat. }
    clearbody h1. simpl.
    rbind. eapply (runs_set_child al DL). { simpl. rewrite Hh1 by tag_solve. exact Hy. }
    simpl. rewrite <-Hrl. set (h2 := <[y := _]> h1).
    assert (forall a, a <> y -> a ∉ addrs l -> h2 !! a = w_heap w !! a) as Hh2.
    { intros a Hay Hal. unfold h2. rewrite lookup_insert_ne by done. by apply Hh1. }
    (* the part that depends on where y is *)
    assert (forall Q' : addr -> W -> Prop,
      (forall h6, (forall a, f a <> 2 -> f a <> 3 -> f a <> 4 -> f a <> 5 -> h6 !! a = w_heap w !! a) ->
         (forall a, a <> y -> a ∉ addrs l -> a ∉ caddrs kr -> a ∉ addrs xr -> h6 !! a = w_heap w !! a) ->
         (exists p, h6 !! y = Some (ncell al cy p (root l) (root (plug kr xr)) vy)) ->
         tat h6 y l -> tat h6 y (plug kr xr) -> Q' (cpar y kr) (set_heap h6 w)) ->
      runs (if decide (y <> zr) then
              let! yp := parent_of y in
              do! (match root xr with Some x => set_parent x (Some yp) | None => ret tt end) in
              do! set_left yp (root xr) in
              do! set_right y (Some zr) in
              do! set_parent zr (Some y) in
              ret yp
            else ret y) (set_heap h2 w) Q') as Hmid.
    { intros Q' HQ'. destruct kr as [|d1 c1 a1 v1 s1 k1].
      - rewrite decide_False by (rewrite HzrT by done; intros Hneq; by apply Hneq).
        apply runs_ret. eapply HQ'.
        + intros a Ha2 Ha3 _ _. apply Hh2; [congruence|]. intros Hin. by apply F3 in Hin.
        + intros a Ha2 Ha3 _ _. by apply Hh2.
        + exists z. unfold h2. rewrite lookup_insert. simpl in *. done.
        + eapply tat_ext; [|exact Hl1]. intros a Ha. unfold h2. rewrite lookup_insert_ne by tag_solve. done.
        + eapply tat_ext; [|exact Hxr]. intros a Ha. apply Hh2; tag_solve.
      - assert (y <> zr) as Hyzr. { specialize (HzrF ltac:(done)). apply F4 in HzrF. congruence. }
        rewrite decide_True by done.
        assert (d1 = DL) as ->.
        { destruct d1; [done|]. apply (f_equal length) in Hkr. simpl in Hkr. rewrite !app_length in Hkr. simpl in Hkr. lia. }
        assert (f a1 = 4) as Fa1. { apply F4. apply (cpar_in hdr). }
        rbind. eapply (runs_parent_of al DL). { simpl. unfold h2. by rewrite lookup_insert. }
        simpl cpar.
        assert (tat h2 y xr) as Hxr2. { eapply tat_ext; [|exact Hxr]. intros a Ha. apply Hh2; tag_solve. }
        rbind. eapply (runs_repar al y a1 xr); [done|done|].
        simpl. set (h3 := repar al a1 xr h2). simpl in Hkrat. pose proof Hkrat as (Ha1 & Hs1 & Hk1).
        assert (fr_at al h3 z (Frame DL c1 a1 v1 s1 k1) (Some y)) as Hkr3.
        { eapply (fr_ext al hdr); [|exact Hkrat]. intros a Ha. unfold h3. rewrite repar_ne by tag_solve.
          apply Hh2; tag_solve. }
        rbind. eapply (runs_set_child al DL). { simpl. destruct Hkr3 as [Hkr3 _]. exact Hkr3. }
        simpl. set (h4 := <[a1 := _]> h3).
        assert (fr_at al h4 z (Frame DL c1 a1 v1 s1 k1) (root xr)) as Hkr4.
        { exact (fr_at_upd h3 z DL c1 a1 v1 s1 k1 (Some y) (root xr) Hnkr Hkr3). }
        rbind. eapply (runs_set_child al DR).
        { simpl. unfold h4, h3. rewrite lookup_insert_ne by tag_solve. rewrite repar_ne by tag_solve.
          unfold h2. rewrite lookup_insert. done. }
        simpl. set (h5 := <[y := _]> h4).
        assert (tat h5 z (plug (Frame DL c1 a1 v1 s1 k1) xr)) as Hr5.
        { apply tat_plug. split.
          - eapply (fr_ext al hdr); [|exact Hkr4]. intros a Ha. unfold h5. rewrite lookup_insert_ne by tag_solve. done.
          - assert (tat h3 a1 xr) as Hxr3 by (by eapply repar_tat).
            eapply tat_ext; [|exact Hxr3]. intros a Ha. unfold h5, h4. rewrite !lookup_insert_ne by tag_solve. done. }
        specialize (Hrr' ltac:(done)).
        assert (NoDup (addrs (plug (Frame DL c1 a1 v1 s1 k1) xr))) as Hnr5 by (by rewrite addrs_plug).
        assert (forall a, a ∈ addrs (plug (Frame DL c1 a1 v1 s1 k1) xr) -> f a = 4 \/ f a = 5) as F45.
        { intros a. rewrite addrs_plug. intros [Ha|Ha]%elem_of_app; auto. }
        rbind.
        assert (set_parent (V:=V) zr (Some y) =
          match root (plug (Frame DL c1 a1 v1 s1 k1) xr) with Some b => set_parent b (Some y) | None => ret tt end) as ->.
        { by rewrite Hrr'. }
        eapply (runs_repar al z y); [done|exact Hr5|].
        set (h6 := repar al y (plug (Frame DL c1 a1 v1 s1 k1) xr) h5). apply runs_ret.
        change (Q' a1 (set_heap h6 w)). unfold set_heap; simpl. eapply HQ'.
        + intros a Ha2 Ha3 Ha4 Ha5. unfold h6. rewrite repar_ne by (intros [Hin|Hin]%F45; congruence).
          unfold h5, h4, h3. rewrite !lookup_insert_ne by congruence.
          rewrite repar_ne by (intros Hin%F5; done). apply Hh2; [congruence|]. intros Hin%F3. done.
        + intros a Ha2 Ha3 Ha4 Ha5. unfold h6. rewrite repar_ne by (rewrite addrs_plug; set_solver).
          unfold h5, h4, h3. rewrite !lookup_insert_ne.
          * rewrite repar_ne by done. by apply Hh2.
          * intros <-. apply Ha4. apply (cpar_in hdr).
          * done.
        + exists a1. unfold h6. rewrite repar_ne by (intros [Hin|Hin]%F45; congruence).
          unfold h5. rewrite lookup_insert. rewrite Hrr'. done.
        + eapply tat_ext; [|exact Hl1]. intros a Ha. unfold h6. rewrite repar_ne.
          * unfold h5, h4, h3. rewrite !lookup_insert_ne by tag_solve. rewrite repar_ne by tag_solve.
            unfold h2. rewrite lookup_insert_ne by tag_solve. done.
          * apply F3 in Ha. intros [Hin|Hin]%F45; congruence.
        + by eapply repar_tat. }
    rbind. apply Hmid. clear Hmid. intros h6 Hh6 Hh6' (p6 & Hy6) Hl6 Hr6.
    assert (ctx_at al hdr lm rm n h6 k (Some z)) as Hctx6.
    { eapply ctx_at_ext; [| |exact Hctx].
      - apply Hh6; congruence.
      - intros a Ha. assert (f a = 0) by (apply F0; by right). apply Hh6; congruence. }
    assert (h6 !! z = Some (ncell al cz (cpar hdr k) (root l) (root r) vz)) as Hz6.
    { rewrite Hh6 by congruence. exact Hz. }
    rbind. eapply (runs_replace al hdr lm rm n DL k z (Some y) _ h6); [done|exact Hctx6| |exact Hz6|done|].
    { rewrite NoDup_cons in Hnc; rewrite !NoDup_cons. split_and!; [|intros Hin|tauto].
      - apply not_elem_of_cons. split; [|tauto]. intros ->. congruence.
      - assert (f z = 0) by (apply F0; by right). congruence. }
    set (h7 := <[cpar hdr k := _]> h6).
    rbind. eapply (runs_get_parent al DL). { simpl. unfold h7. rewrite lookup_insert_ne by congruence. exact Hz6. }
    rbind. eapply (runs_set_parent al DL). { simpl. unfold h7. rewrite lookup_insert_ne by congruence. exact Hy6. }
    simpl. set (h8 := <[y := _]> h7).
    rbind. eapply (runs_get_color al DL). { simpl. unfold h8. by rewrite lookup_insert. }
    assert (h8 !! z = Some (ncell al cz (cpar hdr k) (root l) (root r) vz)) as Hz8.
    { unfold h8, h7. rewrite !lookup_insert_ne by congruence. done. }
    rbind. eapply (runs_get_color al DL). { exact Hz8. }
    rbind. eapply (runs_set_color al DL). { simpl. unfold h8. by rewrite lookup_insert. }
    simpl. set (h9 := <[y := _]> h8).
    rbind. eapply (runs_set_color al DL). { simpl. unfold h9. rewrite lookup_insert_ne by congruence. exact Hz8. }
    simpl. set (h10 := <[z := _]> h9). apply runs_ret. unfold set_heap; simpl. apply HQ.
    assert (forall a, f a <> 0 -> f a <> 1 -> f a <> 2 -> h10 !! a = h6 !! a) as Hh10.
    { intros a Ha0 Ha1 Ha2. unfold h10, h9, h8, h7. rewrite !lookup_insert_ne by congruence. done. }
    eapply tin_shrink; [exact Ht| | | |unfold h10; by rewrite lookup_insert|].
    - simpl root. eapply ctx_at_ext; [| |exact (ctx_at_upd al hdr lm rm n h6 k (Some z) (Some y) Hnc Hctx6)]; fold h7.
      + unfold h10, h9, h8. rewrite !lookup_insert_ne by congruence. done.
      + intros a Ha. assert (f a = 0) by (apply F0; by right). unfold h10, h9, h8. rewrite !lookup_insert_ne by congruence. done.
    - simpl. split_and!.
      + unfold h10, h9. rewrite lookup_insert_ne by congruence. by rewrite lookup_insert.
      + eapply tat_ext; [|exact Hl6]. intros a Ha. apply F3 in Ha. apply Hh10; congruence.
      + eapply tat_ext; [|exact Hr6]. intros a Ha. rewrite addrs_plug in Ha.
        apply elem_of_app in Ha as [Ha|Ha]; [apply F4 in Ha|apply F5 in Ha]; apply Hh10; congruence.
    - unfold t', r. csimpl. rewrite !fmap_app. csimpl. rewrite !addrs_plug. csimpl. perm_solve.
    - intros a. rewrite Hperm. simpl.
      rewrite !not_elem_of_cons, !not_elem_of_app, !not_elem_of_cons, !not_elem_of_app.
      intros (Hah & (Hak1 & Hak2) & Haz & Hay & Hal & (Hakr1 & Hakr2) & Haxr & _). unfold h10, h9, h8, h7.
      rewrite !lookup_insert_ne by done.
      rewrite lookup_insert_ne.
      + apply Hh6'; [done|done| |done]. by apply not_elem_of_app.
      + intros <-. pose proof (cpar_mem hdr k) as Hin. apply elem_of_cons in Hin as [Hin|Hin]; [done|].
        apply elem_of_app in Hin as [Hin|Hin]; done.
  Qed.
End unlink.
