(** * The red-black tree with an arbitrary comparison of keys *)
From Verif Require Export LooseSim RBMain.

Section ops.
  Context `{Profile} {K V : Type} (cmp : K → K → comparison) (cap : N).
  Notation tree := (tree (K * V)).
  Notation frame := (frame (K * V)).
  Notation rbt := (rbt K V).
  Notation rep := (rep (K := K) (V := V) cap).
  Notation R := (R (K := K) (V := V) cap).
  Notation cells := (cells rgrb).
  Notation ccellsb := (ccellsb rgrb).
  Implicit Types t : rbt.
  Implicit Types s x y z U : tree.
  Implicit Types ctx : list frame.

  Record rbl t U : Prop := {
    rbl_rep : rep t U;
    rbl_bal : balanced U }.

  Lemma rbl_set_value t t' ctx m l i kv r v :
    rbl t (plug ctx (Nd m l i kv r)) → rep t' (plug ctx (Nd m l i (kv.1, v) r)) →
    rbl t' (plug ctx (Nd m l i (kv.1, v) r)).
  Proof. intros [Hr Hb] Hr'. split; [done|eapply balanced_same; [apply same_plug|done]]. Qed.

  Notation ins_ok k v T o T' :=
    (bt_step cmp cap (Some (MInsert k v)) T (Val (MBool (match o with Some _ => true | None => false end))) T').

  Lemma wpl_insert_loop fuel t ctx m l i kv r k v (Q : option N → rbt → Prop) :
    rbl t (plug ctx (Nd m l i kv r)) → follows cmp k ctx → (height (Nd m l i kv r) ≤ fuel)%nat →
    (∀ o t' U', rbl t' U' → ins_ok k v (bt_of (plug ctx (Nd m l i kv r))) o (bt_of U') → Q o t') →
    wp (rb_insert_loop cmp fuel k v i) t Q.
  Proof.
    revert ctx m l i kv r. induction fuel as [|fuel IH]; intros ctx m l i kv r Hok Hp Hh HQ; [simpl in Hh; lia|].
    pose proof Hok as [HR Hbal]. simpl rb_insert_loop. apply wp_bind. eapply wp_gets; [by eapply rep_node|].
    set (U := plug ctx (Nd m l i kv r)) in *.
    (* the new leaf *)
    assert (∀ d (o : tree), U = plug (F d m i kv o :: ctx) Lf → follows cmp k (F d m i kv o :: ctx) →
      wp (t ← mget;
            if decide (rb_capacity t ≤ rb_len t) then mret None
            else
              node_index ← rb_on (na_add_node (k, v));
              rb_color_red node_index;;
              rb_connect i node_index (dN d);;
              grandparent ← gets (λ t, rb_get_parent t i);
              (if decide (grandparent ≠ SENTINEL) then rb_fix_insert node_index else mret ());;
              mret (Some node_index)) t Q) as Hnew.
    { clear IH. intros d o HU Hp'. rewrite HU in *. clear U HU. apply wp_bind, wp_mget.
      rewrite (rep_cap _ _ _ HR), (rep_len _ _ _ HR). pose proof (rep_len_le _ _ _ HR) as Hle.
      set (f := F d m i kv o) in *.
      case_decide as Hfull.
      - apply wp_ret. eapply (HQ None t); [exact Hok|]. apply bs_full; [by apply (absent_find cmp k (f :: ctx))|].
        rewrite bt_seq_of. lia.
      - apply wp_bind, R_on. destruct HR as [Hc Hr]. eapply CH_add_node; [exact _|exact Hc|rewrite cells_length; lia|].
        intros i' a' Hc'.
        assert (R (set_ral a' t) ((i', Node (replicate 4 0) (k, v)) :: cells 0 (plug (f :: ctx) Lf)) (root (plug (f :: ctx) Lf)))
          as HR' by done.
        assert (i' ∉ (entries (plug (f :: ctx) Lf)).*1) as Hfresh.
        { apply CH_NoDup in Hc'. simpl in Hc'. apply NoDup_cons in Hc' as [Hc' _]. by rewrite <- (cells_addrs rgrb 0). }
        assert (i' ≠ 0) as Hnz by (eapply CH_nz; [exact Hc'|apply elem_of_list_here]).
        assert (i' ≤ cap) as Hicap by (eapply CH_le; [exact Hc'|apply elem_of_list_here]).
        clear Hc Hr. revert HR'. generalize (set_ral a' t). clear a' Hc'. intros t1 HR1.
        assert (∀ t' U', rep t' U' → balanced U' → entries U' = entries (plug (f :: ctx) (Nd 1 Lf i' (k, v) Lf)) →
          Q (Some i') t') as Hfin.
        { intros t' U' HR' Hb' He'. rewrite entries_plug in He'. simpl entries in He'. eapply (HQ _ _ U'); [by split|].
          eapply (bs_new cmp cap k v i'); [by apply (absent_find cmp k (f :: ctx))|rewrite bt_seq_of; lia|by rewrite bt_seq_of|done|done|].
          rewrite bt_seq_of, He'. symmetry. by apply (absent_put cmp k _ (f :: ctx)). }
        assert (wp (rb_color_red i' ;; rb_connect i i' (dN d)) t1 (λ _ t', rep t' (plug (f :: ctx) (Nd 1 Lf i' (k, v) Lf)))) as Hat.
        { eapply wp_attach; [exact HR1|]. done. }
        apply wp_elim in Hat as ([] & t2 & He2 & HR2). unfold mbind, M_bind in He2.
        apply wp_bind. unfold wp. destruct (rb_color_red i' t1) as [u1 t1'|e t1'] eqn:E1; [|done].
        apply wp_bind. unfold wp. rewrite He2.
        apply wp_bind. eapply wp_gets; [by eapply (rep_frame_parent cap t2 _ d m i kv o ctx)|].
        destruct Hbal as [Hm [n Hn]]. destruct (cx_unplug _ _ _ Hn Hm) as (n' & HLf & Hcx & Hcp).
        inversion HLf; subst n'.
        assert (rbi (Nd 1 Lf i' (k, v) Lf) 0) as Hrbi by (constructor; constructor || done).
        apply wp_bind. case_decide as Hg.
        + eapply wp_fix_insert; [exact HR2|exact Hrbi|exact Hcx|].
          intros t' U' n' HR' Hr' Hm' He'. apply wp_ret. apply (Hfin t' U' HR'); [split; eauto|done].
        + apply wp_ret, wp_ret. apply (Hfin t2 _ HR2); [|done].
          destruct ctx as [|f' ctx].
          * split; [by eapply cx_root|]. eapply cx_plug; [exact Hrbi|exact Hcx|].
            intros _ Hfm. exfalso. unfold f in *. simpl in Hfm. subst m. inversion Hcx.
          * exfalso. revert Hg. simpl. destruct f' as [d' m' g kvg o'].
            exact (rep_frame_nz cap t2 _ d' m' g kvg o' ctx (mk d m (Nd 1 Lf i' (k, v) Lf) i kv o) HR2 eq_refl). }
    destruct (cmp k kv.1) eqn:Ek.
    - apply wp_bind. eapply rep_set_value; [exact HR|]. intros t' HR'. apply wp_ret.
      eapply HQ; [by eapply rbl_set_value|].
      unfold U. rewrite <- (found_upd cmp k (λ _, v) ctx m l i kv r) by done.
      eapply bs_present. by apply found_find.
    - apply wp_bind. eapply wp_gets; [by eapply rep_left|]. destruct l as [|ml ll il kvl rl].
      + rewrite decide_True by done. apply (Hnew false r); [done|]. by apply follows_left.
      + rewrite decide_False by (eapply (rep_nz cap t _ (F false m i kv r :: ctx)); [exact HR|done]).
        eapply (IH (F false m i kv r :: ctx)); [exact Hok|by apply follows_left|simpl in *; lia|exact HQ].
    - apply wp_bind. eapply wp_gets; [by eapply rep_right|]. destruct r as [|mr lr ir kvr rr].
      + rewrite decide_True by done. apply (Hnew true l); [done|]. by apply follows_right.
      + rewrite decide_False by (eapply (rep_nz cap t _ (F true m i kv l :: ctx)); [exact HR|done]).
        eapply (IH (F true m i kv l :: ctx)); [exact Hok|by apply follows_right|simpl in *; lia|exact HQ].
  Qed.

  Lemma wpl_insert t U k v (Q : option N → rbt → Prop) :
    rbl t U → 0 < cap →
    (∀ o t' U', rbl t' U' → ins_ok k v (bt_of U) o (bt_of U') → Q o t') →
    wp (rb_insert cmp k v) t Q.
  Proof.
    intros Hok Hcap HQ. pose proof Hok as [HR Hbal]. unfold rb_insert. apply wp_bind, wp_mget.
    rewrite (rep_root _ _ _ HR). destruct U as [|m l i kv r].
    - rewrite decide_True by done. apply wp_bind, R_on. destruct HR as [Hc Hr].
      eapply CH_add_node; [exact _|exact Hc|done|]. intros i a' Hc'. apply wp_bind, wp_modify, wp_ret.
      eapply (HQ _ _ (Nd 0 Lf i (k, v) Lf)).
      + split.
        * split; [|done]. exact Hc'.
        * split; [done|]. exists 1%nat. by repeat constructor.
      + eapply (bs_new cmp cap k v i); [done|done|set_solver| | |done].
        * eapply CH_nz; [exact Hc'|apply elem_of_list_here].
        * eapply CH_le; [exact Hc'|apply elem_of_list_here].
    - rewrite decide_False by (eapply (rep_nz cap t _ []); [exact HR|done]).
      eapply (wpl_insert_loop _ t [] m l i kv r); [exact Hok|apply follows_nil| |exact HQ].
      pose proof (rep_tsize _ _ _ HR). pose proof (height_tsize (Nd m l i kv r)).
      erewrite R_fuel by exact HR. lia.
  Qed.

  Lemma wpl_remove_loop fuel t ctx m l i kv r k (Q : option V → rbt → Prop) :
    rbl t (plug ctx (Nd m l i kv r)) → follows cmp k ctx → (height (Nd m l i kv r) ≤ fuel)%nat →
    (∀ o t' U', rbl t' U' → bt_step cmp cap (Some (MRemove k)) (bt_of (plug ctx (Nd m l i kv r))) (Val (MVal o)) (bt_of U') → Q o t') →
    wp (rb_remove_loop cmp fuel k i) t Q.
  Proof.
    revert ctx m l i kv r. induction fuel as [|fuel IH]; intros ctx m l i kv r Hok Hp Hh HQ; [simpl in Hh; lia|].
    pose proof Hok as [HR Hbal]. simpl rb_remove_loop. apply wp_bind. eapply wp_gets; [by eapply rep_node|].
    destruct (cmp k kv.1) eqn:Ek.
    - apply wp_bind. eapply wp_remove_tree_node; [exact HR|exact Hbal|]. intros t' U' HR' Hb' He'. apply wp_ret.
      eapply (HQ _ _ U'); [by split|]. eapply (bs_remove cmp cap k (i, kv)); [by apply found_find|].
      rewrite found_del, bt_seq_of, He' by done. by rewrite <- !app_assoc.
    - apply wp_bind. eapply wp_gets; [by eapply rep_left|]. destruct l as [|ml ll il kvl rl].
      + rewrite decide_True by done. apply wp_ret. eapply HQ; [exact Hok|]. apply bs_absent.
        apply (absent_find cmp k (F false m i kv r :: ctx)). by apply follows_left.
      + rewrite decide_False by (eapply (rep_nz cap t _ (F false m i kv r :: ctx)); [exact HR|done]).
        eapply (IH (F false m i kv r :: ctx)); [exact Hok|by apply follows_left|simpl in *; lia|exact HQ].
    - apply wp_bind. eapply wp_gets; [by eapply rep_right|]. destruct r as [|mr lr ir kvr rr].
      + rewrite decide_True by done. apply wp_ret. eapply HQ; [exact Hok|]. apply bs_absent.
        apply (absent_find cmp k (F true m i kv l :: ctx)). by apply follows_right.
      + rewrite decide_False by (eapply (rep_nz cap t _ (F true m i kv l :: ctx)); [exact HR|done]).
        eapply (IH (F true m i kv l :: ctx)); [exact Hok|by apply follows_right|simpl in *; lia|exact HQ].
  Qed.
  Lemma wpl_remove t U k (Q : option V → rbt → Prop) :
    rbl t U →
    (∀ o t' U', rbl t' U' → bt_step cmp cap (Some (MRemove k)) (bt_of U) (Val (MVal o)) (bt_of U') → Q o t') →
    wp (rb_remove cmp k) t Q.
  Proof.
    intros Hok HQ. pose proof Hok as [HR Hbal]. unfold rb_remove. apply wp_bind, wp_mget.
    rewrite (rep_root _ _ _ HR). destruct U as [|m l i kv r].
    - rewrite decide_True by done. apply wp_ret. eapply HQ; [exact Hok|]. by apply bs_absent.
    - rewrite decide_False by (eapply (rep_nz cap t _ []); [exact HR|done]).
      eapply (wpl_remove_loop _ t [] m l i kv r); [exact Hok|apply follows_nil| |exact HQ].
      pose proof (rep_tsize _ _ _ HR). pose proof (height_tsize (Nd m l i kv r)).
      erewrite R_fuel by exact HR. lia.
  Qed.
  Lemma wpl_remove_root t U (Q : option (K * V) → rbt → Prop) :
    rbl t U →
    (∀ o t' U', rbl t' U' → bt_step cmp cap None (bt_of U) (Val (MPair o)) (bt_of U') → Q o t') →
    wp rb_remove_root t Q.
  Proof.
    intros Hok HQ. pose proof Hok as [HR Hbal]. unfold rb_remove_root. apply wp_bind, wp_mget.
    rewrite (rep_root _ _ _ HR). destruct U as [|m l i kv r].
    - rewrite decide_True by done. apply wp_ret. eapply HQ; [exact Hok|]. constructor.
    - rewrite decide_False by (eapply (rep_nz cap t _ []); [exact HR|done]).
      apply wp_bind. eapply wp_gets; [rewrite (rep_root _ _ _ HR); exact (rep_node cap t _ [] _ _ _ _ _ HR eq_refl)|].
      apply wp_bind. eapply (wp_remove_tree_node cap t [] m l i kv r); [exact HR|exact Hbal|].
      intros t' U' HR' Hb' He'. apply wp_ret. simpl in He'. rewrite app_nil_r in He'.
      eapply (HQ _ _ U'); [by split|]. constructor. by rewrite !bt_seq_of.
  Qed.

  (** *** Reads *)
  Lemma rbl_addr t U k :
    rbl t U → ∃ ctx s, plug ctx s = U ∧ follows cmp k ctx ∧ rb_get_addr cmp t k = Val (root s) ∧
      (s = Lf ∨ ∃ m l i kv r, s = Nd m l i kv r ∧ cmp k kv.1 = Eq).
  Proof.
    intros [HR Hb].
    assert (rb_get_addr cmp t k = Val (root (tdesc cmp k [] U).2)) as Haddr.
    { unfold rb_get_addr. rewrite (rep_root _ _ _ HR). apply bst_get_addr_ok.
      - by eapply rep_shp.
      - destruct HR as [Hc _]. by eapply CH_vals.
      - pose proof (rep_tsize _ _ _ HR). pose proof (height_tsize U). erewrite R_fuel by exact HR. lia. }
    destruct (tdesc_follows cmp k [] U (follows_nil cmp k)) as [Hf Hd]. pose proof (tdesc_plug cmp k [] U) as Hp.
    eexists _, _. split_and!; [exact Hp|done|done|done].
  Qed.
  Lemma rbl_get t U k : rbl t U → rb_get cmp t k = Val (bt_get cmp k (bt_of U)).
  Proof.
    intros Hok. destruct (rbl_addr t U k Hok) as (ctx & s & <- & Hf & Ha & Hd). unfold rb_get, bt_get. rewrite Ha. simpl.
    destruct Hd as [->|(m & l & i & kv & r & -> & Hk)].
    - rewrite absent_find by done. done.
    - rewrite found_find by done. destruct Hok as [HR _]. pose proof (rep_nz cap t _ ctx _ _ _ _ _ HR eq_refl) as Hnz. simpl.
      rewrite decide_False by done. by rewrite (rep_node cap t _ ctx _ _ _ _ _ HR eq_refl).
  Qed.
  Lemma wpl_get_mut t U k f (Q : option V → rbt → Prop) :
    rbl t U →
    (∀ t' U', rbl t' U' → bt_of U' = bt_upd cmp k f (bt_of U) → Q (bt_get cmp k (bt_of U)) t') →
    wp (rb_get_mut cmp k f) t Q.
  Proof.
    intros Hok HQ. destruct (rbl_addr t U k Hok) as (ctx & s & <- & Hf & Ha & Hd). unfold rb_get_mut.
    apply wp_bind. eapply wp_gets; [exact Ha|]. unfold bt_get in HQ.
    destruct Hd as [->|(m & l & i & kv & r & -> & Hk)].
    - rewrite decide_True by done. apply wp_ret. pose proof (absent_find cmp k ctx Hf) as Hn. rewrite Hn in HQ.
      apply (HQ _ _ Hok). by rewrite bt_upd_absent.
    - rewrite found_find in HQ by done. destruct (Hok) as [HR _]. pose proof (rep_nz cap t _ ctx _ _ _ _ _ HR eq_refl) as Hnz. simpl root.
      rewrite decide_False by done.
      apply wp_bind. eapply wp_gets; [exact (rep_node cap t _ ctx _ _ _ _ _ HR eq_refl)|].
      apply wp_bind. eapply rep_set_value; [exact HR|]. intros t' HR'. apply wp_ret.
      eapply HQ; [by eapply rbl_set_value|]. symmetry. by apply found_upd.
  Qed.
  Lemma rbl_iterate_mut t U sc (Q : list (option (N * (K * V))) → rbt → Prop) :
    rbl t U →
    (∀ t' U', rbl t' U' → bt_keys (bt_of U') = bt_keys (bt_of U) → entries U' = (de_mut_spec upd_ent sc (entries U)).2 →
      Q (de_mut_spec upd_ent sc (entries U)).1 t') →
    wp (rb_iterate_mut sc) t Q.
  Proof.
    intros [HR Hb] HQ. unfold rb_iterate_mut.
    assert (wp (drive_mut rb_iter_mut_next rb_iter_mut_next_back sc) (t, rb_iter t) (λ o st, Q o st.1)) as Hw.
    { unfold rb_iter_mut_next, rb_iter_mut_next_back, rb_on_iter.
      apply (drive_mut_zoom (λ st : rbt * titer, (rb_al st.1, st.2)) (λ at_ st, (set_ral at_.1 st.1, at_.2))).
      - by intros [[] ?].
      - by intros [] [[] ?].
      - by intros [] [] [[] ?].
      - simpl. unfold rb_iter. rewrite (rep_root _ _ _ HR). destruct HR as [Hc Hr].
        eapply (ti_drive_mut rgrb rgrb_ok cap); [exact Hc|]. intros a' it' U' Hc' Hss Hk He. simpl.
        eapply HQ; [|by apply same_bt_keys|exact He]. split.
        + split; [exact Hc'|]. simpl. rewrite Hr. by apply same_shape_root.
        + by eapply balanced_same. }
    unfold wp in *. destruct (drive_mut _ _ sc (t, rb_iter t)) as [a [t' it]|e [t' it]]; done.
  Qed.

  Definition RBL t (T : bt K V) : Prop := ∃ U, rbl t U ∧ bt_of U = T.
  Lemma rb_lm_ok : 0 < cap → lm_ok (rb_api cmp) cmp cap RBL.
  Proof.
    intros Hcap. split; unfold rb_api; simpl.
    - intros t T k v (U & Hok & <-). eapply wpl_insert; [exact Hok|done|]. intros o t' U' Hok' Hr.
      exists (bt_of U'). split; [by exists U'|done].
    - intros t T k (U & Hok & <-). eapply wpl_remove; [exact Hok|]. intros o t' U' Hok' Hr.
      exists (bt_of U'). split; [by exists U'|done].
    - intros t T k (U & Hok & <-). by apply rbl_get.
    - intros t T k f (U & Hok & <-). eapply wpl_get_mut; [exact Hok|]. intros t' U' Hok' Hr.
      split; [done|]. by exists U'.
    - intros t k o Hg. unfold rb_contains. by rewrite Hg.
    - intros t T (U & [] & <-). rewrite bt_seq_of. by eapply rep_len.
    - intros t T (U & [] & <-). by eapply rep_cap.
    - intros t T (U & [] & <-). rewrite bt_seq_of. by eapply rb_min_ok.
    - intros t T (U & [] & <-). rewrite bt_seq_of. by eapply rb_max_ok.
    - intros t k o Hg. unfold rb_index. rewrite Hg. by destruct o.
    - intros t k f o t' Hg. unfold rb_index_mut, mbind, M_bind. rewrite Hg. by destruct o.
    - intros t T sc (U & [] & <-). rewrite bt_seq_of. by eapply rb_iterate_ok.
    - intros t T sc (U & Hok & <-). rewrite bt_seq_of. eapply rbl_iterate_mut; [exact Hok|]. intros t' U' Hok' Hk He.
      split; [done|]. exists (bt_of U'). split_and!; [by exists U'|done|by rewrite bt_seq_of].
  Qed.

  Lemma rb_loose_step o t U :
    0 < cap → rbl t U →
    ∃ r t' U', call (rb_step cmp o) t = (r, t') ∧ rbl t' U' ∧ bt_step cmp cap o (bt_of U) r (bt_of U').
  Proof.
    intros Hcap Hok. destruct o as [o|]; simpl.
    - destruct (lm_step_ok _ cmp cap _ o t (bt_of U) (rb_lm_ok Hcap)) as (r & t' & T' & Hc & (U' & Hok' & <-) & Hs); [by exists U|].
      by exists r, t', U'.
    - assert (wp rb_remove_root t (λ o t', ∃ U', rbl t' U' ∧ bt_step cmp cap None (bt_of U) (Val (MPair o)) (bt_of U'))) as Hw.
      { eapply wpl_remove_root; [exact Hok|]. eauto. }
      apply wp_elim in Hw as (o & t' & He & U' & Hok' & Ho).
      exists (Val (MPair o)), t', U'. unfold call, mbind, M_bind. rewrite He. done.
  Qed.
  Lemma rb_loose_run ops t U :
    0 < cap → rbl t U →
    ∃ U', rbl (history (rb_step cmp) ops t).2 U' ∧ bt_run cmp cap ops (bt_of U) (history (rb_step cmp) ops t).1 (bt_of U').
  Proof.
    intros Hcap. revert t U. induction ops as [|o ops IH]; intros t U Hok; simpl.
    { exists U. split; [done|constructor]. }
    destruct (rb_loose_step o t U Hcap Hok) as (r & t1 & U1 & -> & Hok1 & Hs).
    destruct (IH t1 U1 Hok1) as (U2 & Hok2 & Hr). destruct (history (rb_step cmp) ops t1) as [rs t2]. simpl in *.
    exists U2. split; [done|]. by econstructor.
  Qed.

  Lemma rep_bt_at t ctx s : rep t (plug ctx s) → bt_at (rb_get_node t) (rb_get_left t) (rb_get_right t) (root s) (bt_of s).
  Proof.
    revert ctx. induction s as [|m l IHl i kv r IHr]; intros ctx HR; simpl; [constructor|].
    econstructor.
    - exact (rep_nz cap t _ ctx _ _ _ _ _ HR eq_refl).
    - exact (rep_node cap t _ ctx _ _ _ _ _ HR eq_refl).
    - by eapply rep_left.
    - by eapply rep_right.
    - apply (IHl (F false m i kv r :: ctx)). exact HR.
    - apply (IHr (F true m i kv l :: ctx)). exact HR.
  Qed.
End ops.

(** ** From the start *)
Section main.
  Context `{Profile} {K V : Type} (cmp : K → K → comparison) (ms : nat) (d : K * V)
    (H0 : (0 < ms)%nat) (Hw : N.of_nat ms + 1 < W32).
  Notation cap := (N.of_nat ms).

  Lemma rb_any_ops ops :
    ∃ U, rbl cap (history (rb_step cmp) ops (rb_new ms d)).2 U ∧
      bt_run cmp cap ops BL (history (rb_step cmp) ops (rb_new ms d)).1 (bt_of U).
  Proof using H0 Hw.
    apply (rb_loose_run cmp cap ops (rb_new ms d) Lf); [lia|]. by destruct (rbok_new cmp ms d Hw).
  Qed.
  Lemma rb_any_fact ops :
    let '(rs, t) := history (rb_step cmp) ops (rb_new ms d) in
    ∃ T, bt_at (rb_get_node t) (rb_get_left t) (rb_get_right t) (rb_root t) T ∧ bt_run cmp cap ops BL rs T.
  Proof using H0 Hw.
    destruct (rb_any_ops ops) as (U & [HR _] & Hr). destruct (history (rb_step cmp) ops (rb_new ms d)) as [rs t]. simpl in *.
    exists (bt_of U). split; [|done]. rewrite (rep_root _ _ _ HR). by apply (rep_bt_at cap t [] U).
  Qed.
  Lemma rb_any_shape ops :
    let t := (history (rb_step cmp) ops (rb_new ms d)).2 in
    rb_get_color t (rb_root t) = Val Black ∧ (∃ n, rb_sub t (rb_root t) n) ∧ rb_is_valid t = Val true ∧
    ∀ p, rb_path t (rb_root t) p → 2 ^ lengthN p ≤ (rb_len t + 1) ^ 2.
  Proof using H0 Hw.
    intros t. destruct (rb_any_ops ops) as (U & [HR Hb] & _). fold t in HR.
    assert (rbok (λ _ _, Lt) cap t U) as Hok.
    { split; [done|done|]. generalize ((entries U).*2). intros es. induction es; constructor; [done|]. by apply Forall_true. }
    split_and!.
    - destruct Hb as [Hm _]. rewrite (rep_root _ _ _ HR), (rep_color cap _ _ [] U HR eq_refl). by rewrite Hm.
    - destruct Hb as [_ [n Hn]]. exists n. rewrite (rep_root _ _ _ HR). by eapply (rep_sub cap _ []).
    - by eapply rb_is_valid_ok.
    - intros p Hp. pose proof (rb_height _ _ _ _ Hok) as Hh. rewrite (rep_root _ _ _ HR) in Hp.
      apply (rep_path cap _ []) in Hp; [|done]. etrans; [|exact Hh]. apply N.pow_le_mono_r; unfold lengthN; lia.
  Qed.
End main.
