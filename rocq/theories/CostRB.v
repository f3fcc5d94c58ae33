(** * The red-black tree: [rounds] greater than the height of the tree is enough for every loop *)
From Verif Require Export CostModel RBOps.

Section ops.
  Context `{Profile} {K V : Type} (cmp : K → K → comparison) (HO : OrdLaws cmp) (cap : N) (rn : nat).
  Notation tree := (tree (K * V)).
  Notation frame := (frame (K * V)).
  Notation rbt := (rbt K V).
  Notation rep := (rep (K := K) (V := V) cap).
  Notation R := (R (K := K) (V := V) cap).
  Notation rbok := (rbok cmp cap).
  Notation cells := (cells rgrb).
  Notation ccellsb := (ccellsb rgrb).
  Notation ccells := (ccellsb 0).
  Implicit Types t : rbt.
  Implicit Types s x y z U : tree.
  Implicit Types ctx : list frame.

  Lemma height_plug_le ctx s : (length ctx + height s ≤ height (plug ctx s))%nat.
  Proof using Type.
    clear HO. revert s. induction ctx as [|[d m a kv o] ctx IH]; intros s; simpl; [lia|].
    etrans; [|apply IH]. destruct d; simpl; lia.
  Qed.

  Lemma wpn_fix_insert t ctx i kv x y n (Q : () → rbt → Prop) :
    rep t (plug ctx (Nd 1 x i kv y)) → rbi (Nd 1 x i kv y) n → cx ctx n → (length ctx < rn)%nat →
    (∀ t' U' n', rep t' U' → rbi U' n' → mark U' = 0 → entries U' = entries (plug ctx (Nd 1 x i kv y)) → Q () t') →
    wp (rbn_fix_insert rn i) t Q.
  Proof.
    intros HR Hs Hc Hln HQ. unfold rbn_fix_insert. apply wp_bind, wp_mget, wp_bind.
    eapply wp_fix_insert_loop; [done..| |].
    { pose proof (rep_tsize _ _ _ HR) as Hsz. rewrite tsize_plug in Hsz. pose proof (csize_length ctx).
      erewrite R_fuel by exact HR. lia. }
    intros t' U' n' HR' Hr' Hent. apply wp_bind, wp_mget. rewrite (rep_root _ _ _ HR').
    eapply (rep_black_set cap t' _ [] U'); [done..|]. simpl. intros t'' HR''.
    destruct (rbi_setm_black _ _ Hr') as [n'' Hn'']. eapply HQ; [exact HR''|exact Hn''|apply setm_mark|].
    by rewrite setm_entries.
  Qed.
  Lemma wpn_fix_remove t d c p kvp o ctx x n pd (Q : () → rbt → Prop) :
    rep t (plug (F d c p kvp o :: ctx) x) → rbi x n → cx (F d c p kvp o :: ctx) (S n) → (length ctx < rn)%nat →
    (pd = Some (p, dN d) ∨ pd = None ∧ x ≠ Lf) →
    (∀ t' U' n', rep t' U' → rbi U' n' → mark U' = 0 → entries U' = entries (plug (F d c p kvp o :: ctx) x) → Q () t') →
    wp (rbn_fix_remove rn (root x) pd) t Q.
  Proof.
    intros HR Hx Hc Hln Hpd HQ. unfold rbn_fix_remove.
    assert (∀ fuel', fuel' = Nat.min rn (rb_fuel t) → wp (rb_fix_remove_loop fuel' p (dN d)) t Q) as Hloop.
    { intros ? ->. eapply wp_fix_remove_loop; [done..| |done].
      pose proof (rep_tsize _ _ _ HR) as Hsz. rewrite tsize_plug in Hsz. simpl in Hsz. pose proof (csize_length ctx).
      erewrite R_fuel by exact HR. lia. }
    assert (x = Lf ∨ x ≠ Lf) as [->|Hne] by (destruct x; [by left|by right]).
    - apply wp_bind. eapply wp_gets; [done|]. apply wp_bind. eapply wp_gets; [done|].
      destruct Hpd as [->|[_ ?]]; [|done]. apply wp_bind, wp_mget. by apply Hloop.
    - apply wp_bind. eapply wp_gets; [by eapply (rep_parent cap t _ (F d c p kvp o :: ctx) x)|].
      simpl ctopb. apply wp_bind. eapply wp_gets; [by eapply (rep_child_dir cap t _ d c p kvp o ctx x)|].
      apply wp_bind, wp_mget. destruct Hpd as [->|[-> _]]; by apply Hloop.
  Qed.
  Lemma wpn_insert_loop fuel t ctx m l i kv r k v (Q : option N → rbt → Prop) :
    rbok t (plug ctx (Nd m l i kv r)) → onpath cmp k ctx → (height (Nd m l i kv r) ≤ fuel)%nat → (length ctx + height (Nd m l i kv r) < rn)%nat →
    (∀ o t' U', rbok t' U' → ins_rel cmp cap k v (entries (plug ctx (Nd m l i kv r))) o (entries U') →
       (o = None → t' = t) → Q o t') →
    wp (rbn_insert_loop cmp rn fuel k v i) t Q.
  Proof using HO.
    revert ctx m l i kv r. induction fuel as [|fuel IH]; intros ctx m l i kv r Hok Hp Hh Hln HQ; [simpl in Hh; lia|].
    pose proof Hok as [HR Hbal Hasc]. simpl rbn_insert_loop. apply wp_bind. eapply wp_gets; [by eapply rep_node|].
    set (U := plug ctx (Nd m l i kv r)) in *.
    (* the new leaf *)
    assert (∀ d (o : tree), U = plug (F d m i kv o :: ctx) Lf → onpath cmp k (F d m i kv o :: ctx) →
      wp (t ← mget;
            if decide (rb_capacity t ≤ rb_len t) then mret None
            else
              node_index ← rb_on (na_add_node (k, v));
              rb_color_red node_index;;
              rb_connect i node_index (dN d);;
              grandparent ← gets (λ t, rb_get_parent t i);
              (if decide (grandparent ≠ SENTINEL) then rbn_fix_insert rn node_index else mret ());;
              mret (Some node_index)) t Q) as Hnew.
    { clear IH. intros d o HU Hp'. rewrite HU in *. clear U HU. apply wp_bind, wp_mget.
      rewrite (rep_cap cap _ _ HR), (rep_len cap _ _ HR). pose proof (rep_len_le cap _ _ HR) as Hle.
      set (f := F d m i kv o) in *.
      assert (entries (plug (f :: ctx) Lf) = cbef (f :: ctx) ++ caft (f :: ctx)) as HE by exact (entries_plug (f :: ctx) Lf).
      destruct Hp' as [Hb Ha].
      case_decide as Hfull.
      - apply wp_ret. eapply (HQ None t); [exact Hok| |done]. eapply ins_full; [exact HE|lia|done|done].
      - apply wp_bind, R_on. destruct HR as [Hc Hr]. eapply CH_add_node; [exact _|exact Hc|rewrite cells_length; lia|].
        intros i' a' Hc'.
        assert (R (set_ral a' t) ((i', Node (replicate 4 0) (k, v)) :: cells 0 (plug (f :: ctx) Lf)) (root (plug (f :: ctx) Lf)))
          as HR' by done.
        assert (i' ∉ (entries (plug (f :: ctx) Lf)).*1) as Hfresh.
        { apply CH_NoDup in Hc'. simpl in Hc'. apply NoDup_cons in Hc' as [Hc' _]. by rewrite <- (cells_addrs rgrb 0). }
        assert (i' ≠ 0) as Hnz by (eapply CH_nz; [exact Hc'|apply elem_of_list_here]).
        assert (i' ≤ cap) as Hicap by (eapply CH_le; [exact Hc'|apply elem_of_list_here]).
        clear Hc Hr. revert HR'. generalize (set_ral a' t). clear a' Hc'. intros t1 HR1.
        assert (∀ t' U', rep t' U' → balanced U' → entries U' = entries (plug (f :: ctx) (Nd 1 Lf i' (k, v) Lf)) →
          Q (Some i') t') as Hfin.
        { intros t' U' HR' Hb' He'. rewrite entries_plug in He'. simpl in He'. eapply (HQ _ _ U'); [split; [done|done|]| |done].
          - rewrite He', fmap_app, fmap_cons. apply ascending_insert; [done| |done|done].
            by rewrite HE, fmap_app in Hasc.
          - rewrite He'. eapply ins_new; [exact HE|lia|done|done|done|done|done]. }
        assert (wp (rb_color_red i' ;; rb_connect i i' (dN d)) t1 (λ _ t', rep t' (plug (f :: ctx) (Nd 1 Lf i' (k, v) Lf)))) as Hat.
        { eapply wp_attach; [exact HR1|]. done. }
        apply wp_elim in Hat as ([] & t2 & He2 & HR2). unfold mbind, M_bind in He2.
        apply wp_bind. unfold wp. destruct (rb_color_red i' t1) as [u1 t1'|e t1'] eqn:E1; [|done].
        apply wp_bind. unfold wp. rewrite He2.
        apply wp_bind. eapply wp_gets; [by eapply (rep_frame_parent cap t2 _ d m i kv o ctx)|].
        destruct Hbal as [Hm [n Hn]]. destruct (cx_unplug _ _ _ Hn Hm) as (n' & HLf & Hcx & Hcp).
        inversion HLf; subst n'.
        assert (rbi (Nd 1 Lf i' (k, v) Lf) 0) as Hrbi by (constructor; constructor || done).
        apply wp_bind. case_decide as Hg.
        + eapply wpn_fix_insert; [exact HR2|exact Hrbi|exact Hcx|unfold f; simpl in *; lia|].
          intros t' U' n' HR' Hr' Hm' He'. apply wp_ret. apply (Hfin t' U' HR'); [split; eauto|done].
        + apply wp_ret, wp_ret. apply (Hfin t2 _ HR2); [|done].
          destruct ctx as [|f' ctx].
          * split; [by eapply cx_root|]. eapply cx_plug; [exact Hrbi|exact Hcx|].
            intros _ Hfm. exfalso. unfold f in *. simpl in Hfm. subst m. inversion Hcx.
          * exfalso. revert Hg. simpl. destruct f' as [d' m' g kvg o'].
            exact (rep_frame_nz cap t2 _ d' m' g kvg o' ctx (mk d m (Nd 1 Lf i' (k, v) Lf) i kv o) HR2 eq_refl). }
    destruct (cmp k kv.1) eqn:Ek.
    - apply wp_bind. eapply rep_set_value; [exact HR|]. intros t' HR'. apply wp_ret.
      eapply HQ; [by eapply rbok_set_value| |done].
      destruct (onpath_found cmp HO _ _ _ _ _ _ _ Hasc Ek) as [Hb Ha].
      unfold U. rewrite !entries_plug. simpl. rewrite <- !app_assoc. simpl.
      rewrite !(app_assoc (cbef ctx)). eapply ins_present; [done|done|by rewrite fmap_app|by rewrite fmap_app].
    - apply wp_bind. eapply wp_gets; [by eapply rep_left|]. destruct l as [|ml ll il kvl rl].
      + rewrite decide_True by done. apply (Hnew false r); [done|]. by eapply onpath_left.
      + rewrite decide_False by (eapply (rep_nz cap t _ (F false m i kv r :: ctx)); [exact HR|done]).
        eapply (IH (F false m i kv r :: ctx)); [exact Hok|by eapply onpath_left|simpl in *; lia|simpl in *; lia|exact HQ].
    - apply wp_bind. eapply wp_gets; [by eapply rep_right|]. destruct r as [|mr lr ir kvr rr].
      + rewrite decide_True by done. apply (Hnew true l); [done|]. by eapply onpath_right.
      + rewrite decide_False by (eapply (rep_nz cap t _ (F true m i kv l :: ctx)); [exact HR|done]).
        eapply (IH (F true m i kv l :: ctx)); [exact Hok|by eapply onpath_right|simpl in *; lia|simpl in *; lia|exact HQ].
  Qed.
  Lemma wpn_insert t U k v (Q : option N → rbt → Prop) :
    rbok t U → 0 < cap → (height U < rn)%nat →
    (∀ o t' U', rbok t' U' → ins_rel cmp cap k v (entries U) o (entries U') → (o = None → t' = t) → Q o t') →
    wp (rbn_insert cmp rn k v) t Q.
  Proof using HO.
    intros Hok Hcap Hln HQ. pose proof Hok as [HR Hbal Hasc]. unfold rbn_insert. apply wp_bind, wp_mget.
    rewrite (rep_root _ _ _ HR). destruct U as [|m l i kv r].
    - rewrite decide_True by done. apply wp_bind, R_on. destruct HR as [Hc Hr].
      eapply CH_add_node; [exact _|exact Hc|done|]. intros i a' Hc'. apply wp_bind, wp_modify, wp_ret.
      eapply (HQ _ _ (Nd 0 Lf i (k, v) Lf)); [| |done].
      + split.
        * split; [|done]. exact Hc'.
        * split; [done|]. exists 1%nat. by repeat constructor.
        * repeat constructor.
      + simpl. eapply (ins_new cmp cap k v [] [] []); [done|done|constructor|constructor|set_solver| |].
        * eapply CH_nz; [exact Hc'|apply elem_of_list_here].
        * eapply CH_le; [exact Hc'|apply elem_of_list_here].
    - rewrite decide_False by (eapply (rep_nz cap t _ []); [exact HR|done]).
      eapply (wpn_insert_loop _ t [] m l i kv r); [exact Hok|apply onpath_nil| |exact Hln|exact HQ].
      pose proof (rep_tsize _ _ _ HR). pose proof (height_tsize (Nd m l i kv r)).
      erewrite R_fuel by exact HR. lia.
  Qed.
  Lemma wpn_fix_phase t full x n mc pd (Q : () → rbt → Prop) :
    rep t (plug full x) → rbi x n → hole_ok full x n mc → pd_ok full x pd → (length full ≤ rn)%nat →
    (∀ t' U', rep t' U' → balanced U' → entries U' = entries (plug full x) → Q () t') →
    wp (if bool_decide (mc = 0) then
          t ← mget; if rb_is_root t (root x) then rb_color_black (root x) else rbn_fix_remove rn (root x) pd
        else mret ()) t Q.
  Proof using Type.
    clear HO. intros HR Hx Hh Hpd Hln HQ. destruct Hh as [[-> Hcx]|(-> & Hcx & Hne & Hm)].
    - rewrite bool_decide_true by done. apply wp_bind, wp_mget. destruct full as [|[d c p kvp o] full].
      + replace (rb_is_root t (root x)) with true.
        2:{ symmetry. apply bool_decide_eq_true. apply (rep_root _ _ _ HR). }
        eapply (rep_black_set cap t _ []); [exact HR|done|]. intros t' HR'. simpl in HR'.
        eapply HQ; [exact HR'|split; [apply setm_mark|by eapply rbi_setm_black]|apply setm_entries].
      + replace (rb_is_root t (root x)) with false.
        2:{ symmetry. apply bool_decide_eq_false. destruct x as [|mx xl xi xkv xr].
            - rewrite (rep_root _ _ _ HR). eapply (rep_nz' cap t _ []); [exact HR|done|].
              intros [? _]%plug_Lf. done.
            - by eapply (rep_root_inner cap t _ _ _ HR). }
        eapply wpn_fix_remove; [exact HR|exact Hx|exact Hcx|simpl in Hln; lia|exact Hpd|].
        intros t' U' n' HR' Hb' Hm' He'. eapply HQ; [exact HR'|split; eauto|done].
    - rewrite bool_decide_false by done. apply wp_ret. eapply HQ; [exact HR| |done].
      split; [by eapply cx_root|]. eapply cx_plug; [exact Hx|exact Hcx|]. intros _. destruct full; naive_solver.
  Qed.
  Lemma repn_find_max t ctx s :
    rep t (plug ctx s) → (height s < rn)%nat → rbn_find_max rn t (root s) = Val (tmax s).
  Proof using Type.
    clear HO. intros HR Hln. unfold rbn_find_max. apply na_find_max.
    - eapply (shp_plug _ ctx). destruct HR as [Hc _]. by eapply (CH_shp rgrb rgrb_ok).
    - pose proof (rep_tsize _ _ _ HR) as Hts. rewrite tsize_plug in Hts. pose proof (height_tsize s).
      erewrite R_fuel by exact HR. lia.
  Qed.
  Lemma wpn_remove_tree_node t ctx m (l : tree) i kv (r : tree) (Q : () → rbt → Prop) :
    rep t (plug ctx (Nd m l i kv r)) → balanced (plug ctx (Nd m l i kv r)) → (length ctx + height (Nd m l i kv r) ≤ rn)%nat →
    (∀ t' U', rep t' U' → balanced U' → entries U' = cbef ctx ++ entries l ++ entries r ++ caft ctx → Q () t') →
    wp (rbn_remove_tree_node rn i) t Q.
  Proof using Type.
    clear HO. intros HR [Hm0 [n0 Hn0]] Hln HQ. destruct (cx_unplug _ _ _ Hn0 Hm0) as (n & Hnd & Hcx & Hcp). clear n0 Hn0.
    assert (i ≠ 0) as Hi by (eapply (rep_nz cap t _ ctx); [exact HR|done]).
    unfold rbn_remove_tree_node.
    apply wp_bind. eapply wp_gets; [exact (rep_black cap t _ ctx (Nd m l i kv r) HR eq_refl)|].
    apply wp_bind. eapply wp_gets; [exact (rep_left cap t _ ctx _ _ _ _ _ HR eq_refl)|].
    apply wp_bind. eapply wp_gets; [exact (rep_right cap t _ ctx _ _ _ _ _ HR eq_refl)|].
    apply wp_bind. eapply wp_gets; [by apply (rep_is_leaf cap t ctx _ _ _ _ _ HR)|].
    simpl mark.
    (* the rest, after the structural change *)
    assert (∀ t1 full x n1 mc pd a b p c, (length full ≤ rn)%nat → R t1 ((i, Node [a; b; p; c] kv) :: cells 0 (plug full x)) (root (plug full x)) →
      rbi x n1 → hole_ok full x n1 mc → pd_ok full x pd →
      entries (plug full x) = cbef ctx ++ entries l ++ entries r ++ caft ctx →
      wp (let '(pivot, parent_and_dir, is_black) := (root x, pd, bool_decide (mc = 0)) in
          rb_remove_allocator_node i;;
          if (is_black : bool) then
            t ← mget;
            if rb_is_root t pivot then rb_color_black pivot
            else rbn_fix_remove rn pivot parent_and_dir
          else mret ()) t1 Q) as Hrest.
    { intros t1 full x n1 mc pd a b p c Hlf HR1 Hx Hh Hpd He. apply wp_bind.
      eapply wp_remove_allocator_node; [exact HR1|]. intros t2 HR2.
      eapply wpn_fix_phase; [exact HR2|exact Hx|exact Hh|exact Hpd|exact Hlf|].
      intros t' U' HR' Hb' He'. eapply HQ; [exact HR'|exact Hb'|]. by rewrite He', He. }
    apply wp_bind. destruct l as [|ml ll il kvl rl], r as [|mr lr ir kvr rr].
    - (* a leaf *)
      apply wp_bind, wp_mget. pose proof (rep_is_root cap t _ ctx (Nd m Lf i kv Lf) HR eq_refl) as Hroot. simpl in Hroot.
      rewrite Hroot by done. clear Hroot. destruct ctx as [|[d c p kvp o] ctx].
      + simpl. apply wp_bind, wp_modify, wp_ret. simpl in HR. destruct HR as [Hc Hr]. simpl in Hcp. subst m.
        eapply (Hrest (set_rroot SENTINEL t) [] Lf 0%nat 0); [simpl in Hln |- *; lia| split; [exact Hc|done]|constructor|left; split; [done|constructor]|done|done].
      + simpl negb. cbv iota. apply wp_bind. eapply wp_gets; [by apply (rep_parent cap t _ (F d c p kvp o :: ctx) (Nd m Lf i kv Lf) HR eq_refl)|].
        apply wp_bind. eapply wp_gets; [by apply (rep_child_dir cap t _ d c p kvp o ctx (Nd m Lf i kv Lf) HR eq_refl)|].
        apply wp_bind, rb_connect_set, wp_bind. apply rep_focus in HR.
        eapply (R_rehole cap t (cells p (Nd m Lf i kv Lf)) _ 0 d c p kvp o ctx i 0); [eapply R_perm; [exact HR|apply Permutation_app_comm]|].
        clear t HR. intros t HR. apply R_set0, wp_ret.
        inversion Hnd; subst.
        * eapply (Hrest t (F d c p kvp o :: ctx) Lf _ 1); [simpl in Hln |- *; lia| |done|right; split_and!; done|by left|by rewrite entries_plug].
          eapply R_perm; [rewrite root_plug; exact HR|]. rewrite cells_plug. apply (Permutation_app_comm _ [_]).
        * eapply (Hrest t (F d c p kvp o :: ctx) Lf _ 0); [simpl in Hln |- *; lia| |done|left; split_and!; done|by left|by rewrite entries_plug].
          eapply R_perm; [rewrite root_plug; exact HR|]. rewrite cells_plug. apply (Permutation_app_comm _ [_]).
    - (* only a right child *)
      rewrite decide_True by done. apply wp_bind.
      eapply (wp_one cap t ctx true m (Nd mr lr ir kvr rr) i kv); [exact HR|done|]. clear t HR. intros t HR. apply wp_ret.
      destruct (rbi_mk_inv true _ _ _ _ _ _ Hnd) as [(-> & Hx & _ & Hmx & _)|(-> & n' & -> & Hx & _)].
      + eapply (Hrest t ctx (Nd mr lr ir kvr rr) _ 1); [simpl in Hln |- *; lia| exact HR|exact Hx|right; split_and!; [done|done|by intros ->|done]| |by rewrite entries_plug; simpl].
        destruct ctx as [|[]]; [done|by right].
      + eapply (Hrest t ctx (Nd mr lr ir kvr rr) _ 0); [simpl in Hln |- *; lia| exact HR|exact Hx|left; split_and!; done| |by rewrite entries_plug; simpl].
        destruct ctx as [|[]]; [done|by right].
    - (* only a left child *)
      assert (root (Nd ml ll il kvl rl) ≠ 0) as Hl0 by (eapply (rep_nz' cap t _ (F false m i kv Lf :: ctx)); [exact HR|done|done]).
      rewrite decide_False by exact Hl0. rewrite decide_True by done. apply wp_bind.
      eapply (wp_one cap t ctx false m (Nd ml ll il kvl rl) i kv); [exact HR|done|]. clear t HR. intros t HR. apply wp_ret.
      destruct (rbi_mk_inv false _ _ _ _ _ _ Hnd) as [(-> & Hx & _ & Hmx & _)|(-> & n' & -> & Hx & _)].
      + eapply (Hrest t ctx (Nd ml ll il kvl rl) _ 1); [simpl in Hln |- *; lia| exact HR|exact Hx|right; split_and!; [done|done|by intros ->|done]| |by rewrite entries_plug; simpl].
        destruct ctx as [|[]]; [done|by right].
      + eapply (Hrest t ctx (Nd ml ll il kvl rl) _ 0); [simpl in Hln |- *; lia| exact HR|exact Hx|left; split_and!; done| |by rewrite entries_plug; simpl].
        destruct ctx as [|[]]; [done|by right].
    - (* two children *)
      assert (root (Nd ml ll il kvl rl) ≠ 0) as Hl0 by (eapply (rep_nz' cap t _ (F false m i kv (Nd mr lr ir kvr rr) :: ctx)); [exact HR|done|done]).
      assert (root (Nd mr lr ir kvr rr) ≠ 0) as Hr0 by (eapply (rep_nz' cap t _ (F true m i kv (Nd ml ll il kvl rl) :: ctx)); [exact HR|done|done]).
      rewrite decide_False by exact Hl0. rewrite decide_False by exact Hr0. clear Hl0 Hr0.
      revert HR Hm0 Hnd Hcp HQ Hrest Hln.
      assert (Nd ml ll il kvl rl ≠ Lf) as Hlne by done. revert Hlne.
      generalize (Nd ml ll il kvl rl), (Nd mr lr ir kvr rr). clear ml ll il kvl rl mr lr ir kvr rr.
      intros l r Hlne HR Hm0 Hnd Hcp _ Hrest Hln.
      destruct (max_split l Hlne) as (cm & mc & ml & j & kvj & Hl & Hj & Hcm).
      apply wp_bind. eapply wp_gets; [by apply (repn_find_max t (F false m i kv r :: ctx) l HR ltac:(simpl in Hln; lia))|]. rewrite <- Hj. clear Hj.
      set (full := cm ++ F false m i kv r :: ctx).
      assert (plug ctx (Nd m l i kv r) = plug full (Nd mc ml j kvj Lf)) as HU.
      { unfold full. rewrite plug_app. simpl. by rewrite <- Hl. }
      pose proof HR as HRf. rewrite HU in HRf.
      apply wp_bind. eapply wp_gets; [by apply (rep_parent cap t _ full (Nd mc ml j kvj Lf) HRf eq_refl)|].
      apply wp_bind. eapply wp_gets; [exact (rep_left cap t _ full _ _ _ _ _ HRf eq_refl)|].
      apply wp_bind. eapply wp_gets; [exact (rep_black cap t _ full (Nd mc ml j kvj Lf) HRf eq_refl)|].
      apply wp_bind. eapply wp_gets; [by apply (rep_parent cap t _ full (Nd mc ml j kvj Lf) HRf eq_refl)|].
      simpl mark.
      (* balance of the remaining tree *)
      set (full' := cm ++ F false m j kvj r :: ctx).
      assert (length full' ≤ rn)%nat as Hlf.
      { unfold full'. rewrite app_length. simpl. pose proof (height_plug_le cm (Nd mc ml j kvj Lf)) as Hhp. rewrite <- Hl in Hhp.
        simpl in Hln, Hhp. lia. }
      assert (∃ n1, rbi ml n1 ∧ hole_ok full' ml n1 mc) as (n1 & Hml & Hh).
      { rewrite HU in Hm0. assert (∃ n2, rbi (plug full (Nd mc ml j kvj Lf)) n2) as [n2 Hn2].
        { rewrite <- HU. eapply cx_plug; [exact Hnd|exact Hcx|done]. }
        destruct (cx_unplug _ _ _ Hn2 Hm0) as (n3 & Hn3 & Hcx3 & Hcp3). apply (cx_readdr _ _ _ _ _ j kvj) in Hcx3.
        destruct (rbi_mk_inv false _ _ _ _ _ _ Hn3) as [(-> & Hx & _ & Hmx & _)|(-> & n' & -> & Hx & _)].
        - exists n3. split; [done|]. right. split_and!; [done|done| |done]. unfold full'. by destruct cm.
        - exists n'. split; [done|]. by left. }
      assert (plug full' ml = plug ctx (Nd m (plug cm ml) j kvj r)) as HU'.
      { unfold full'. rewrite plug_app. done. }
      assert (entries (plug full' ml) = cbef ctx ++ entries l ++ entries r ++ caft ctx) as He.
      { rewrite HU', entries_plug, Hl. simpl. rewrite !entries_plug. simpl. rewrite <- !app_assoc. simpl.
        by rewrite (caft_right cm Hcm). }
      (* the last steps *)
      assert (∀ t1 pd li pj, R t1 ((j, Node [root (plug cm ml); 0; pj; mc] kvj) :: (i, Node [li; root r; ctop ctx; m] kv) ::
         cells j (plug cm ml) ++ cells i r ++ ccells ctx i) (croot ctx i) → pd_ok full' ml pd →
         wp (rb_transplant i j;;
             r ← gets (λ t, rb_get_right t i);
             rb_connect j r Right;;
             c ← gets (λ t, rb_get_color t i);
             rb_color_node j c;;
             mret (root ml, pd, bool_decide (mc = 0))) t1
          (λ a t', wp (let '(pivot, parent_and_dir, is_black) := a in
            rb_remove_allocator_node i;;
            if (is_black : bool) then
              t ← mget;
              if rb_is_root t pivot then rb_color_black pivot
              else rbn_fix_remove rn pivot parent_and_dir
            else mret ()) t' Q)) as Hlast.
      { intros t1 pd li pj HR1 Hpd. eapply wp_replace; [exact HR1|]. intros t2 HR2.
        eapply Hrest; [exact Hlf|rewrite HU'; exact HR2|exact Hml|exact Hh|exact Hpd|exact He]. }
      apply wp_bind. destruct cm as [|[fd0 fm0 fa0 fkv0 fo0] cm].
      + (* the maximum is the left child itself *)
        rewrite decide_False by (simpl; naive_solver). simpl in Hl, HU'.
        assert (pd_ok full' ml (if decide (root ml = SENTINEL) then Some (j, Left) else None)) as Hpd.
        { unfold full'. simpl. destruct (decide (root ml = SENTINEL)); [by left|right]. split; [done|]. by intros ->. }
        subst l. assert (R t ((j, Node [root ml; 0; i; mc] kvj) :: (i, Node [j; root r; ctop ctx; m] kv) ::
           cells j ml ++ cells i r ++ ccells ctx i) (croot ctx i)) as HR1.
        { apply rep_focus in HR. eapply R_perm; [exact HR|]. simpl. unfold rgrb.
          generalize (cells j ml), (cells i r), (ccells ctx i). intros. solve_Permutation. }
        case_decide as Hml0.
        * apply wp_bind. eapply wp_gets; [by apply (rep_is_leaf cap t full _ _ _ _ _ HRf)|].
          replace (match ml with Lf => true | _ => false end) with true.
          2:{ destruct ml; [done|]. exfalso. eapply (rep_nz cap t _ (F false mc j kvj Lf :: full)); [exact HRf|done|done]. }
          apply wp_bind, wp_massert; [done|]. apply wp_ret. by eapply Hlast; [exact HR1|].
        * apply wp_ret. by eapply Hlast; [exact HR1|].
      + (* it is further down *)
        apply Forall_cons in Hcm as [Hcm _]. simpl in Hcm. subst fd0. rewrite decide_True; cycle 1.
        { simpl. eapply addr_l_ne; [exact (rep_NoDup cap _ _ HR)|]. rewrite Hl, entries_plug. simpl.
          rewrite !fmap_app, !elem_of_app. simpl. rewrite elem_of_list_singleton. auto. }
        apply wp_bind. apply rep_focus in HRf. eapply (wp_transplant cap t full (cells (ctop full) (Nd mc ml j kvj Lf)) j).
        { eapply R_perm; [exact HRf|]. apply Permutation_app_comm. }
        { simpl. unfold rgrb. apply elem_of_list_here. }
        clear t HR HRf. intros t HR.
        eapply (R_reparent cap t ((j, Node [root ml; 0; ctop full; mc] kvj) :: ccells full (root ml)) _ ml j).
        { eapply R_perm; [exact HR|]. generalize (ccells full (root ml)). intros X. simpl. unfold rgrb. rewrite app_nil_r.
          generalize (cells j ml). intros. solve_Permutation. }
        clear t HR. intros t HR. set (l' := plug (F true fm0 fa0 fkv0 fo0 :: cm) ml) in *.
        assert (R t ((j, Node [root ml; 0; ctop full; mc] kvj) :: (i, Node [root l'; root r; ctop ctx; m] kv) ::
          cells i l' ++ cells i r ++ ccells ctx i) (croot ctx i)) as HR1.
        { assert (plug full ml = plug ctx (Nd m l' i kv r)) as HU2 by (unfold full; by rewrite plug_app).
          assert (croot full (root ml) = croot ctx i) as Hcr by (by rewrite <- root_plug, HU2, root_plug).
          rewrite Hcr in HR. eapply R_perm; [exact HR|]. rewrite <- Permutation_middle, <- cells_plug, HU2, cells_plug.
          simpl. unfold rgrb. by rewrite <- app_assoc. }
        clear HR. rename HR1 into HR.
        apply wp_bind. eapply wp_gets; [eapply (R_left cap t); [exact HR|apply elem_of_list_further, elem_of_list_here]|].
        apply wp_bind, rb_connect_set, wp_bind. eapply R_set; [exact HR|done|]. clear t HR. intros t HR.
        change (setr Left (root l') _) with (Node [root l'; 0; ctop full; mc] kvj) in HR.
        eapply (R_reparent cap t ((j, Node [root l'; 0; ctop full; mc] kvj) :: (i, Node [root l'; root r; ctop ctx; m] kv) :: cells i r ++ ccells ctx i) _ l' i j).
        { eapply R_perm; [exact HR|]. generalize (ccells ctx i), (cells i l'), (cells i r). intros X Y Z. solve_Permutation. }
        clear t HR. intros t HR. apply wp_ret. eapply Hlast.
        { eapply R_perm; [exact HR|]. generalize (ccells ctx i), (cells j l'), (cells i r). intros X Y Z. solve_Permutation. }
        unfold full'. simpl. destruct (decide (root ml = SENTINEL)); [by left|right]. split; [done|]. by intros ->.
  Qed.
  Lemma wpn_remove_found t ctx m (l : tree) i kv (r : tree) k (Q : () → rbt → Prop) :
    rbok t (plug ctx (Nd m l i kv r)) → cmp k kv.1 = Eq → (length ctx + height (Nd m l i kv r) ≤ rn)%nat →
    (∀ t' U', rbok t' U' → rem_rel cmp k (entries (plug ctx (Nd m l i kv r))) (Some kv.2) (entries U') →
       entries U' = (cbef ctx ++ entries l) ++ entries r ++ caft ctx → Q () t') →
    wp (rbn_remove_tree_node rn i) t Q.
  Proof using HO.
    intros [HR Hb Ha] Hk Hln HQ. destruct (onpath_found cmp HO _ _ _ _ _ _ _ Ha Hk) as [Hbe Hab].
    eapply wpn_remove_tree_node; [exact HR|exact Hb|exact Hln|]. intros t' U' HR' Hb' He'.
    rewrite app_assoc in He'. rewrite entries_del in Ha. rewrite fmap_app, fmap_cons in Ha.
    assert (ascending cmp (entries U').*2) as Ha'.
    { rewrite He', fmap_app. by eapply ascending_delete. }
    eapply HQ; [by split| |done]. rewrite He', entries_del.
    eapply rem_present; [done|done|by rewrite fmap_app|by rewrite fmap_app].
  Qed.
  Lemma wpn_remove_loop fuel t ctx m l i kv r k (Q : option V → rbt → Prop) :
    rbok t (plug ctx (Nd m l i kv r)) → onpath cmp k ctx → (height (Nd m l i kv r) ≤ fuel)%nat → (length ctx + height (Nd m l i kv r) ≤ rn)%nat →
    (∀ o t' U', rbok t' U' → rem_rel cmp k (entries (plug ctx (Nd m l i kv r))) o (entries U') →
       (o = None → t' = t) → Q o t') →
    wp (rbn_remove_loop cmp rn fuel k i) t Q.
  Proof using HO.
    revert ctx m l i kv r. induction fuel as [|fuel IH]; intros ctx m l i kv r Hok Hp Hh Hln HQ; [simpl in Hh; lia|].
    pose proof Hok as [HR Hbal Hasc]. simpl rbn_remove_loop. apply wp_bind. eapply wp_gets; [by eapply rep_node|].
    destruct (cmp k kv.1) eqn:Ek.
    - apply wp_bind. eapply wpn_remove_found; [exact Hok|exact Ek|exact Hln|]. intros t' U' Hok' Hr' _. apply wp_ret. by eapply HQ.
    - apply wp_bind. eapply wp_gets; [by eapply rep_left|]. destruct l as [|ml ll il kvl rl].
      + rewrite decide_True by done. apply wp_ret. eapply HQ; [exact Hok| |done].
        destruct (onpath_left cmp HO _ _ _ _ _ _ _ Hasc Hp Ek) as [Hb Ha].
        eapply rem_absent; [exact (entries_plug (F false m i kv r :: ctx) Lf)|done|done].
      + rewrite decide_False by (eapply (rep_nz cap t _ (F false m i kv r :: ctx)); [exact HR|done]).
        eapply (IH (F false m i kv r :: ctx)); [exact Hok|by eapply onpath_left|simpl in *; lia|simpl in *; lia|exact HQ].
    - apply wp_bind. eapply wp_gets; [by eapply rep_right|]. destruct r as [|mr lr ir kvr rr].
      + rewrite decide_True by done. apply wp_ret. eapply HQ; [exact Hok| |done].
        destruct (onpath_right cmp HO _ _ _ _ _ _ _ Hasc Hp Ek) as [Hb Ha].
        eapply rem_absent; [exact (entries_plug (F true m i kv l :: ctx) Lf)|done|done].
      + rewrite decide_False by (eapply (rep_nz cap t _ (F true m i kv l :: ctx)); [exact HR|done]).
        eapply (IH (F true m i kv l :: ctx)); [exact Hok|by eapply onpath_right|simpl in *; lia|simpl in *; lia|exact HQ].
  Qed.
  Lemma wpn_remove t U k (Q : option V → rbt → Prop) :
    rbok t U → (height U ≤ rn)%nat →
    (∀ o t' U', rbok t' U' → rem_rel cmp k (entries U) o (entries U') → (o = None → t' = t) → Q o t') →
    wp (rbn_remove cmp rn k) t Q.
  Proof using HO.
    intros Hok Hln HQ. pose proof Hok as [HR Hbal Hasc]. unfold rbn_remove. apply wp_bind, wp_mget.
    rewrite (rep_root _ _ _ HR). destruct U as [|m l i kv r].
    - rewrite decide_True by done. apply wp_ret. eapply HQ; [exact Hok| |done].
      eapply (rem_absent cmp k [] [] []); [done|constructor|constructor].
    - rewrite decide_False by (eapply (rep_nz cap t _ []); [exact HR|done]).
      eapply (wpn_remove_loop _ t [] m l i kv r); [exact Hok|apply onpath_nil| |exact Hln|exact HQ].
      pose proof (rep_tsize _ _ _ HR). pose proof (height_tsize (Nd m l i kv r)).
      erewrite R_fuel by exact HR. lia.
  Qed.
  Lemma wpn_remove_root t U (Q : option (K * V) → rbt → Prop) :
    rbok t U → (height U ≤ rn)%nat →
    (U = Lf → Q None t) →
    (∀ m l i kv r t' U', U = Nd m l i kv r → rbok t' U' → entries U' = entries l ++ entries r →
       rem_rel cmp kv.1 (entries U) (Some kv.2) (entries U') → Q (Some kv) t') →
    wp (rbn_remove_root rn) t Q.
  Proof using HO.
    intros Hok Hln HQ0 HQ. pose proof Hok as [HR Hbal Hasc]. unfold rbn_remove_root. apply wp_bind, wp_mget.
    rewrite (rep_root _ _ _ HR). destruct U as [|m l i kv r].
    - rewrite decide_True by done. apply wp_ret. by apply HQ0.
    - rewrite decide_False by (eapply (rep_nz cap t _ []); [exact HR|done]).
      apply wp_bind. eapply wp_gets; [rewrite (rep_root _ _ _ HR); exact (rep_node cap t _ [] _ _ _ _ _ HR eq_refl)|].
      apply wp_bind. eapply (wpn_remove_found t [] m l i kv r kv.1); [exact Hok|by apply cmp_refl|exact Hln|].
      intros t' U' Hok' Hr He. apply wp_ret. simpl in He. rewrite app_nil_r in He. by eapply HQ.
  Qed.
End ops.
