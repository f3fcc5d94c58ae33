(** * The AVL tree with an arbitrary comparison of keys *)
From Verif Require Export LooseSim AVLMain.

Section ops.
  Context `{Profile} {K V : Type} (pcmp : K → K → option comparison) (cap : N).
  Notation cmp := (av_cmp pcmp).
  Notation tree := (tree (K * V)).
  Notation frame := (frame (K * V)).
  Notation avlt := (avlt K V).
  Notation rep := (rep (K := K) (V := V) cap).
  Notation R := (R (K := K) (V := V) cap).
  Implicit Types t : avlt.
  Implicit Types s x y z U : tree.
  Implicit Types ctx C : list frame.
  Local Arguments cl : simpl never.
  Local Arguments cc : simpl never.

  Record avll t U : Prop := {
    avll_rep : rep t U;
    avll_avl : avl U }.

  Lemma avll_set_value t t' ctx m l i kv r v :
    avll t (plug ctx (Nd m l i kv r)) → rep t' (plug ctx (Nd m l i (kv.1, v) r)) →
    avll t' (plug ctx (Nd m l i (kv.1, v) r)).
  Proof. intros [Hr Hb] Hr'. split; [done|eapply avl_same; [apply same_plug|done]]. Qed.

  Notation ins_ok k v T o T' :=
    (bt_step cmp cap (Some (MInsert k v)) T (Val (MBool (match o with Some _ => true | None => false end))) T').

  Lemma wpl_insert_loop fuel t ctx m l i kv r k v (Q : option N → avlt → Prop) :
    avll t (plug ctx (Nd m l i kv r)) → follows cmp k ctx → (height (Nd m l i kv r) ≤ fuel)%nat →
    (∀ o t' U', avll t' U' → ins_ok k v (bt_of (plug ctx (Nd m l i kv r))) o (bt_of U') → Q o t') →
    wp (av_insert_loop pcmp fuel k v (apath ctx i) i) t Q.
  Proof.
    revert ctx m l i kv r. induction fuel as [|fuel IH]; intros ctx m l i kv r Hok Hp Hh HQ; [simpl in Hh; lia|].
    pose proof Hok as [HR Hbal]. simpl av_insert_loop. apply wp_bind. eapply wp_gets; [by eapply rep_node|].
    set (U := plug ctx (Nd m l i kv r)) in *.
    (* the new leaf *)
    assert (∀ d (o : tree), U = plug (F d m i kv o :: ctx) Lf → follows cmp k (F d m i kv o :: ctx) →
      wp (t ← mget;
            if decide (av_capacity t ≤ av_len t) then mret None
            else
              reference_node ← av_on (na_add_node (k, v));
              av_set_field i (dN d) reference_node;;
              av_rebalance (apath ctx i);;
              mret (Some reference_node)) t Q) as Hnew.
    { clear IH. intros d o HU Hp'. rewrite HU in *. clear U HU. apply wp_bind, wp_mget.
      rewrite (rep_cap _ _ _ HR), (rep_len _ _ _ HR). pose proof (rep_len_le _ _ _ HR) as Hle.
      set (f := F d m i kv o) in *.
      case_decide as Hfull.
      - apply wp_ret. eapply (HQ None t); [exact Hok|]. apply bs_full; [by apply (absent_find cmp k (f :: ctx))|].
        rewrite bt_seq_of. lia.
      - apply wp_bind, R_on. pose proof HR as [Hc Hr]. eapply CH_add_node; [exact _|exact Hc|unfold cl; rewrite cells_length; lia|].
        intros i' a' Hc'.
        assert (R (set_aal a' t) ((i', Node (replicate 4 0) (k, v)) :: cl (plug (f :: ctx) Lf)) (root (plug (f :: ctx) Lf)))
          as HR' by done.
        assert (i' ∉ (entries (plug (f :: ctx) Lf)).*1) as Hfresh.
        { apply CH_NoDup in Hc'. simpl in Hc'. apply NoDup_cons in Hc' as [Hc' _]. by rewrite <- (cells_addrs rgav 0). }
        assert (i' ≠ 0) as Hnz by (eapply CH_nz; [exact Hc'|apply elem_of_list_here]).
        assert (i' ≤ cap) as Hicap by (eapply CH_le; [exact Hc'|apply elem_of_list_here]).
        clear Hc Hr. revert HR'. generalize (set_aal a' t). clear a' Hc'. intros t1 HR1.
        destruct (avl_unplug _ _ Hbal) as [_ Hcx]. inversion Hcx as [|? ? ? ? ? ? ? Ao Hc1 Hc2 Hc3]; subst. simpl in Hc1, Hc2, Hc3.
        apply wp_bind.
        eapply (wp_setp cap t1 [(i', Node (replicate 4 0) (k, v))] (root (plug (f :: ctx) Lf)) d m i kv o ctx 0 (Nd 0 Lf i' (k, v) Lf)).
        { eapply R_perm; [exact HR1|]. rewrite cl_plug. done. }
        { eexists. split; [apply elem_of_list_here|done]. }
        { done. }
        { done. }
        intros m' t2 HR2.
        assert (rep t2 (plug ctx (mk d m' (Nd 0 Lf i' (k, v) Lf) i kv o))) as HR3.
        { change (rep t2 (plug (F d m' i kv o :: ctx) (Nd 0 Lf i' (k, v) Lf))). rewrite rep_focus, root_plug in *. exact HR2. }
        assert (∀ t' U', rep t' U' → avl U' → entries U' = entries (plug ctx (mk d m' (Nd 0 Lf i' (k, v) Lf) i kv o)) →
          wp (mret (Some i')) t' Q) as Hfin.
        { intros t' U' HR' Hb' He'. apply wp_ret.
          change (entries U' = entries (plug (F d m' i kv o :: ctx) (Nd 0 Lf i' (k, v) Lf))) in He'.
          rewrite entries_plug in He'. simpl in He'.
          change (entries U' = cbef (f :: ctx) ++ (i', (k, v)) :: caft (f :: ctx)) in He'.
          eapply (HQ _ _ U'); [by split|].
          eapply (bs_new cmp cap k v i'); [by apply (absent_find cmp k (f :: ctx))|rewrite bt_seq_of; lia|by rewrite bt_seq_of|done|done|].
          rewrite bt_seq_of, He'. symmetry. by apply (absent_put cmp k _ (f :: ctx)). }
        apply wp_bind.
        assert (avl (Nd 0 Lf i' (k, v) Lf)) as Anew by (apply (avl_Nd Lf i' (k, v) Lf); [constructor|constructor|simpl; lia|simpl; lia]).
        destruct d; simpl mk in *.
        + eapply wp_rebalance; [exact HR3|done|done| |exact Hc3|exact Hfin]. unfold near. simpl. lia.
        + eapply wp_rebalance; [exact HR3|done|done| |exact Hc3|exact Hfin]. unfold near. simpl. lia. }
    destruct (cmp k kv.1) eqn:Ek.
    - apply wp_bind. eapply rep_set_value; [exact HR|]. intros t' HR'. apply wp_ret.
      eapply HQ; [by eapply avll_set_value|].
      unfold U. rewrite <- (found_upd cmp k (λ _, v) ctx m l i kv r) by done.
      eapply bs_present. by apply found_find.
    - apply wp_bind. eapply wp_gets; [by eapply rep_left|]. destruct l as [|ml ll il kvl rl].
      + rewrite decide_True by done. apply (Hnew false r); [done|]. by apply follows_left.
      + rewrite decide_False by (eapply (rep_nz cap t (F false m i kv r :: ctx)); [exact HR|done]).
        eapply (IH (F false m i kv r :: ctx)); [exact Hok|by apply follows_left|simpl in *; lia|exact HQ].
    - apply wp_bind. eapply wp_gets; [by eapply rep_right|]. destruct r as [|mr lr ir kvr rr].
      + rewrite decide_True by done. apply (Hnew true l); [done|]. by apply follows_right.
      + rewrite decide_False by (eapply (rep_nz cap t (F true m i kv l :: ctx)); [exact HR|done]).
        eapply (IH (F true m i kv l :: ctx)); [exact Hok|by apply follows_right|simpl in *; lia|exact HQ].
  Qed.

  Lemma wpl_insert t U k v (Q : option N → avlt → Prop) :
    avll t U → 0 < cap →
    (∀ o t' U', avll t' U' → ins_ok k v (bt_of U) o (bt_of U') → Q o t') →
    wp (av_insert pcmp k v) t Q.
  Proof.
    intros Hok Hcap HQ. pose proof Hok as [HR Hbal]. unfold av_insert. apply wp_bind, wp_mget.
    rewrite (rep_root _ _ _ HR). destruct U as [|m l i kv r].
    - rewrite decide_True by done. apply wp_bind, R_on. destruct HR as [Hc Hr].
      eapply CH_add_node; [exact _|exact Hc|done|]. intros i a' Hc'. apply wp_bind, wp_modify, wp_ret.
      eapply (HQ _ _ (Nd 0 Lf i (k, v) Lf)).
      + split.
        * split; [|done]. exact Hc'.
        * apply (avl_Nd Lf i (k, v) Lf); [constructor|constructor|simpl; lia|simpl; lia].
      + eapply (bs_new cmp cap k v i); [done|done|set_solver| | |done].
        * eapply CH_nz; [exact Hc'|apply elem_of_list_here].
        * eapply CH_le; [exact Hc'|apply elem_of_list_here].
    - rewrite decide_False by (eapply (rep_nz cap t []); [exact HR|done]).
      eapply (wpl_insert_loop _ t [] m l i kv r); [exact Hok|apply follows_nil| |exact HQ].
      pose proof (rep_tsize _ _ _ HR). pose proof (height_tsize (Nd m l i kv r)).
      erewrite R_fuel by exact HR. lia.
  Qed.

  Lemma wpl_remove t U k (Q : option V → avlt → Prop) :
    avll t U →
    (∀ o t' U', avll t' U' → bt_step cmp cap (Some (MRemove k)) (bt_of U) (Val (MVal o)) (bt_of U') → Q o t') →
    wp (av_remove pcmp k) t Q.
  Proof.
    intros Hok HQ. pose proof Hok as [HR Hbal]. unfold av_remove. apply wp_bind, wp_mget.
    rewrite (rep_root _ _ _ HR). destruct (decide (root U = SENTINEL)) as [E0|Hnz].
    - apply (rep_Lf cap t []) in E0; [|exact HR]. subst U. apply wp_ret. eapply HQ; [exact Hok|]. by apply bs_absent.
    - apply wp_bind. eapply wp_gets.
      { apply (remove_walk_ok pcmp cap _ t k [] U); [exact HR|]. pose proof (rep_tsize _ _ _ HR). pose proof (height_tsize U).
        erewrite R_fuel by exact HR. lia. }
      destruct (tdesc_follows cmp k [] U (follows_nil cmp k)) as [Hf Hd]. pose proof (tdesc_plug cmp k [] U) as Hp.
      destruct (tdesc cmp k [] U) as [ctx s]. simpl in Hp, Hd, Hf. cbn [fst snd]. subst U.
      destruct Hd as [->|(m & l & i & kv & r & -> & Hk)].
      + rewrite decide_True by done. apply wp_ret. eapply HQ; [exact Hok|]. apply bs_absent. by apply absent_find.
      + rewrite decide_False by (apply (rep_nz _ _ _ _ HR); done). cbn [root].
        apply wp_bind. eapply wp_gets; [by eapply rep_node|].
        apply wp_bind. eapply wp_gets; [by eapply rep_left|].
        apply wp_bind. eapply wp_gets; [by eapply rep_right|].
        eapply (wp_remove_found cap t ctx m l i kv r (Some kv.2)); [exact HR|exact Hbal|].
        intros t' U' HR' Hb' He'. eapply (HQ _ _ U'); [by split|].
        eapply (bs_remove cmp cap k (i, kv)); [by apply found_find|].
        rewrite found_del, bt_seq_of, He' by done. by rewrite <- !app_assoc.
  Qed.

  (** *** Reads *)
  Lemma avll_addr t U k :
    avll t U → ∃ ctx s, plug ctx s = U ∧ follows cmp k ctx ∧ av_get_addr pcmp t k = Val (root s) ∧
      (s = Lf ∨ ∃ m l i kv r, s = Nd m l i kv r ∧ cmp k kv.1 = Eq).
  Proof.
    intros [HR Hb].
    assert (av_get_addr pcmp t k = Val (root (tdesc cmp k [] U).2)) as Haddr.
    { unfold av_get_addr. rewrite (rep_root _ _ _ HR). apply bst_get_addr_ok.
      - by eapply rep_shp.
      - destruct HR as [Hc _]. by eapply CH_vals.
      - pose proof (rep_tsize _ _ _ HR). pose proof (height_tsize U). erewrite R_fuel by exact HR. lia. }
    destruct (tdesc_follows cmp k [] U (follows_nil cmp k)) as [Hf Hd]. pose proof (tdesc_plug cmp k [] U) as Hp.
    eexists _, _. split_and!; [exact Hp|done|done|done].
  Qed.
  Lemma avll_get t U k : avll t U → av_get pcmp t k = Val (bt_get cmp k (bt_of U)).
  Proof.
    intros Hok. destruct (avll_addr t U k Hok) as (ctx & s & <- & Hf & Ha & Hd).
    rewrite av_get_s_ok. unfold av_get_s, bt_get. rewrite Ha. simpl.
    destruct Hd as [->|(m & l & i & kv & r & -> & Hk)].
    - rewrite absent_find by done. done.
    - rewrite found_find by done. destruct Hok as [HR _].
      assert (i ≠ 0) as Hnz by (apply (rep_nz cap t ctx (Nd m l i kv r) HR); done). simpl.
      rewrite decide_False by done. by rewrite (rep_node cap t ctx _ _ _ _ _ HR).
  Qed.
  Lemma wpl_get_mut t U k f (Q : option V → avlt → Prop) :
    avll t U →
    (∀ t' U', avll t' U' → bt_of U' = bt_upd cmp k f (bt_of U) → Q (bt_get cmp k (bt_of U)) t') →
    wp (av_get_mut pcmp k f) t Q.
  Proof.
    intros Hok HQ. destruct (avll_addr t U k Hok) as (ctx & s & <- & Hf & Ha & Hd).
    eapply wp_ext; [apply av_get_mut_s_ok|]. unfold av_get_mut_s.
    apply wp_bind. eapply wp_gets; [exact Ha|]. unfold bt_get in HQ.
    destruct Hd as [->|(m & l & i & kv & r & -> & Hk)].
    - rewrite decide_True by done. apply wp_ret. pose proof (absent_find cmp k ctx Hf) as Hn. rewrite Hn in HQ.
      apply (HQ _ _ Hok). by rewrite bt_upd_absent.
    - rewrite found_find in HQ by done. destruct (Hok) as [HR _].
      assert (i ≠ 0) as Hnz by (apply (rep_nz cap t ctx (Nd m l i kv r) HR); done). simpl root.
      rewrite decide_False by done.
      apply wp_bind. eapply wp_gets; [exact (rep_node cap t ctx _ _ _ _ _ HR)|].
      apply wp_bind. eapply rep_set_value; [exact HR|]. intros t' HR'. apply wp_ret.
      eapply HQ; [by eapply avll_set_value|]. symmetry. by apply found_upd.
  Qed.
  Lemma avll_iterate_mut t U sc (Q : list (option (N * (K * V))) → avlt → Prop) :
    avll t U →
    (∀ t' U', avll t' U' → bt_keys (bt_of U') = bt_keys (bt_of U) → entries U' = (de_mut_spec upd_ent sc (entries U)).2 →
      Q (de_mut_spec upd_ent sc (entries U)).1 t') →
    wp (av_iterate_mut sc) t Q.
  Proof.
    intros [HR Hb] HQ. unfold av_iterate_mut.
    assert (wp (drive_mut av_iter_mut_next av_iter_mut_next_back sc) (t, av_iter t) (λ o st, Q o st.1)) as Hw.
    { unfold av_iter_mut_next, av_iter_mut_next_back, av_on_iter.
      apply (drive_mut_zoom (λ st : avlt * titer, (av_al st.1, st.2)) (λ at_ st, (set_aal at_.1 st.1, at_.2))).
      - by intros [[] ?].
      - by intros [] [[] ?].
      - by intros [] [] [[] ?].
      - simpl. unfold av_iter. rewrite (rep_root _ _ _ HR). destruct HR as [Hc Hr].
        eapply (ti_drive_mut rgav rgav_ok cap); [exact Hc|]. intros a' it' U' Hc' Hss Hk He. simpl.
        eapply HQ; [|by apply same_bt_keys|exact He]. split.
        + split; [exact Hc'|]. simpl. rewrite Hr. by apply same_shape_root.
        + by eapply avl_same. }
    unfold wp in *. destruct (drive_mut _ _ sc (t, av_iter t)) as [a [t' it]|e [t' it]]; done.
  Qed.

  Definition AVL_ t (T : bt K V) : Prop := ∃ U, avll t U ∧ bt_of U = T.
  Lemma av_lm_ok : 0 < cap → lm_ok (av_api pcmp) cmp cap AVL_.
  Proof.
    intros Hcap. split; unfold av_api; simpl.
    - intros t T k v (U & Hok & <-). eapply wpl_insert; [exact Hok|done|]. intros o t' U' Hok' Hr.
      exists (bt_of U'). split; [by exists U'|done].
    - intros t T k (U & Hok & <-). eapply wpl_remove; [exact Hok|]. intros o t' U' Hok' Hr.
      exists (bt_of U'). split; [by exists U'|done].
    - intros t T k (U & Hok & <-). by apply avll_get.
    - intros t T k f (U & Hok & <-). eapply wpl_get_mut; [exact Hok|]. intros t' U' Hok' Hr.
      split; [done|]. by exists U'.
    - intros t k o Hg. unfold av_contains. by rewrite Hg.
    - intros t T (U & [] & <-). rewrite bt_seq_of. by eapply rep_len.
    - intros t T (U & [] & <-). by eapply rep_cap.
    - intros t T (U & [] & <-). rewrite bt_seq_of. by eapply av_min_ok.
    - intros t T (U & [] & <-). rewrite bt_seq_of. by eapply av_max_ok.
    - intros t k o Hg. unfold av_index. rewrite Hg. by destruct o.
    - intros t k f o t' Hg. unfold av_index_mut, mbind, M_bind. rewrite Hg. by destruct o.
    - intros t T sc (U & [] & <-). rewrite bt_seq_of. by eapply av_iterate_ok.
    - intros t T sc (U & Hok & <-). rewrite bt_seq_of. eapply avll_iterate_mut; [exact Hok|]. intros t' U' Hok' Hk He.
      split; [done|]. exists (bt_of U'). split_and!; [by exists U'|done|by rewrite bt_seq_of].
  Qed.

  Lemma av_loose_run ops t U :
    0 < cap → avll t U →
    ∃ U', avll (history (av_step pcmp) ops t).2 U' ∧
      bt_run cmp cap (Some <$> ops) (bt_of U) (history (av_step pcmp) ops t).1 (bt_of U').
  Proof.
    intros Hcap. revert t U. induction ops as [|o ops IH]; intros t U Hok; simpl.
    { exists U. split; [done|constructor]. }
    destruct (lm_step_ok _ cmp cap _ o t (bt_of U) (av_lm_ok Hcap)) as (r & t1 & T1 & Hc & (U1 & Hok1 & <-) & Hs); [by exists U|].
    unfold av_step at 1 3. rewrite Hc.
    destruct (IH t1 U1 Hok1) as (U2 & Hok2 & Hr). destruct (history (av_step pcmp) ops t1) as [rs t2]. simpl in *.
    exists U2. split; [done|]. by econstructor.
  Qed.

  Lemma rep_bt_at t ctx s :
    rep t (plug ctx s) → bt_at (av_get_node t) (λ i, av_get_field t i Left) (λ i, av_get_field t i Right) (root s) (bt_of s).
  Proof.
    revert ctx. induction s as [|m l IHl i kv r IHr]; intros ctx HR; simpl; [constructor|].
    econstructor.
    - apply (rep_nz cap t ctx (Nd m l i kv r) HR). done.
    - exact (rep_node cap t ctx _ _ _ _ _ HR).
    - by eapply rep_left.
    - by eapply rep_right.
    - apply (IHl (F false m i kv r :: ctx)). exact HR.
    - apply (IHr (F true m i kv l :: ctx)). exact HR.
  Qed.
End ops.

(** ** From the start *)
Section main.
  Context `{Profile} {K V : Type} (pcmp : K → K → option comparison) (ms : nat) (d : K * V)
    (H0 : (0 < ms)%nat) (Hw : N.of_nat ms + 1 < W32).
  Notation cap := (N.of_nat ms).

  Lemma av_any_ops ops :
    ∃ U, avll cap (history (av_step pcmp) ops (av_new ms d)).2 U ∧
      bt_run (av_cmp pcmp) cap (Some <$> ops) BL (history (av_step pcmp) ops (av_new ms d)).1 (bt_of U).
  Proof using H0 Hw.
    apply (av_loose_run pcmp cap ops (av_new ms d) Lf); [lia|]. by destruct (avok_new pcmp ms d Hw).
  Qed.
  Lemma av_any_fact ops :
    let '(rs, t) := history (av_step pcmp) ops (av_new ms d) in
    ∃ T, bt_at (av_get_node t) (λ i, av_get_field t i Left) (λ i, av_get_field t i Right) (as_u32 (av_root t)) T ∧
      bt_run (av_cmp pcmp) cap (Some <$> ops) BL rs T.
  Proof using H0 Hw.
    destruct (av_any_ops ops) as (U & [HR _] & Hr). destruct (history (av_step pcmp) ops (av_new ms d)) as [rs t]. simpl in *.
    exists (bt_of U). split; [|done]. rewrite (rep_root _ _ _ HR). by apply (rep_bt_at cap t [] U).
  Qed.
  Lemma av_any_shape ops :
    let t := (history (av_step pcmp) ops (av_new ms d)).2 in
    (∃ h, av_sub t (as_u32 (av_root t)) h) ∧
    ∀ p, av_path t (as_u32 (av_root t)) p → fib (length p + 2) ≤ av_len t + 1.
  Proof using H0 Hw.
    intros t. destruct (av_any_ops ops) as (U & [HR Ha] & _). fold t in HR.
    assert (avok (λ _ _, Some Lt) cap t U) as Hok.
    { split; [done|done|]. generalize ((entries U).*2). intros es. induction es; constructor; [done|]. by apply Forall_true. }
    split.
    - exists (height U). rewrite (rep_root _ _ _ HR). by eapply (rep_sub cap _ []).
    - intros p Hp. pose proof (av_height _ _ _ _ Hok) as [_ Hf]. rewrite (rep_root _ _ _ HR) in Hp.
      apply (rep_path cap _ []) in Hp; [|done]. etrans; [|exact Hf]. apply fib_mono. lia.
  Qed.
End main.
