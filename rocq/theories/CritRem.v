(** * Critbit: removal *)
From Verif Require Export CritMut.

Section rem.
  Context `{Profile} {V : Type} {G : Ghost V} `{GR : !GRem G} (nn cap : N).
  Notation critbit := (critbit V).
  Notation ctree := (ctree V).
  Notation OK := (AOK 4 nn).
  Notation LK := (CH 4 cap).
  Implicit Types t : critbit.
  Implicit Types U : ctree.
  Implicit Types cs : list (N * node cnode).
  Implicit Types ls : list (N * node V).
  Implicit Types ctx : list (frame V).

  (** the removal walk looks only at the critical bits *)
  Fixpoint rdesc (k : N) ctx U : list (frame V) * ctree :=
    match U with
    | CL _ _ _ _ => (ctx, U)
    | CI i kk p l r => if bit k p then rdesc k (Fr true i kk p l :: ctx) r else rdesc k (Fr false i kk p r :: ctx) l
    end.
  Definition side ctx : bool := match ctx with Fr b _ _ _ _ :: _ => b | [] => false end.
  Lemma rdesc_plug k ctx U : plug (rdesc k ctx U).1 (rdesc k ctx U).2 = plug ctx U.
  Proof.
    revert ctx. induction U as [|i kk p l IHl r IHr]; intros ctx; simpl; [done|].
    destruct (bit k p); [rewrite IHr|rewrite IHl]; done.
  Qed.
  Lemma rdesc_leaf k ctx U : ∃ ctx' i k' j v, rdesc k ctx U = (ctx', CL i k' j v) ∧ (length ctx ≤ length ctx')%nat.
  Proof.
    revert ctx. induction U as [i k' j v|i kk p l IHl r IHr]; intros ctx; simpl; [eauto 10|].
    destruct (bit k p).
    - destruct (IHr (Fr true i kk p l :: ctx)) as (ctx' & ? & ? & ? & ? & He & Hl). simpl in Hl. rewrite He. do 5 eexists. split; [done|lia].
    - destruct (IHl (Fr false i kk p r :: ctx)) as (ctx' & ? & ? & ? & ? & He & Hl). simpl in Hl. rewrite He. do 5 eexists. split; [done|lia].
  Qed.
  Lemma rdesc_key k ctx U : wf U → k ∈ keys U → k ∈ keys (rdesc k ctx U).2.
  Proof.
    revert ctx. induction U as [i k' j v|i kk p l IHl r IHr]; intros ctx; simpl; [done|].
    intros (Hp & Hkk & Hl & Hr & Hwl & Hwr). rewrite keys_CI. rewrite Forall_forall in Hl, Hr. intros [Hi|Hi]%elem_of_app.
    - destruct (Hl _ Hi) as [_ ->]. by apply IHl.
    - destruct (Hr _ Hi) as [_ ->]. by apply IHr.
  Qed.

  Lemma remove_walk_ok fuel t ctx U fr k :
    OK (cb_nodes t) (cells (plug ctx U) 0) fr → LK (cb_leaves t) (lcells (plug ctx U)) → wf U → (cheight U ≤ fuel)%nat →
    cb_remove_walk fuel t k (cpar ctx) (croot U) (side ctx) =
      Val (match (rdesc k ctx U).2 with
           | CL i k' _ _ => if decide (k' ≠ k) then None else Some (cpar (rdesc k ctx U).1, i, side (rdesc k ctx U).1)
           | CI _ _ _ _ _ => None end).
  Proof.
    revert ctx U. induction fuel as [|fuel IH]; intros ctx U Ho Hl Hw Hf; [destruct U; simpl in Hf; lia|].
    destruct U as [i kk j v|i kk p l r].
    - cbn [cb_remove_walk croot rdesc fst snd]. rewrite (rd_node _ _ _ _ Ho _ _ _ _ _ _ (CL_cell _ _ _ _ _)). cbn [mbind res_bind].
      rewrite (rd_inner _ _ _ _ Ho _ _ _ _ _ _ (CL_cell _ _ _ _ _)). cbn [mbind res_bind].
      rewrite bool_decide_false by (eapply CH_nz; [exact Hl|apply lcell_in]). cbn [cn_key].
      by destruct (decide (kk ≠ k)).
    - destruct Hw as (Hp & Hkk & _ & _ & Hwl & Hwr).
      cbn [cb_remove_walk croot rdesc]. rewrite (rd_node _ _ _ _ Ho _ _ _ _ _ _ (CI_cell _ _ _ _ _ _)). cbn [mbind res_bind].
      rewrite (rd_inner _ _ _ _ Ho _ _ _ _ _ _ (CI_cell _ _ _ _ _ _)). cbn [mbind res_bind].
      rewrite bool_decide_true by done. cbn [cn_key cn_prefix_len].
      rewrite (rd_child _ _ _ _ Ho _ _ _ _ _ _ (CI_cell _ _ _ _ _ _) p k Hp). cbn [mbind res_bind fst snd]. simpl in Hf.
      destruct (bit k p) eqn:E.
      + apply (IH (Fr true i kk p l :: ctx)); try done. lia.
      + apply (IH (Fr false i kk p r :: ctx)); try done. lia.
  Qed.

  (** [remove_leaf] of a child *)
  Lemma remove_leaf_ok rt nd lv (b : bool) c s pi par j k cc v cs ls fr (Q : V → critbit → Prop) :
    OK nd ((c, Node [0; 0; pi; j] (CNode k 128)) ::
           (pi, Node [if b then s else c; if b then c else s; par; 0] cc) :: cs) fr → s ≠ c →
    LK lv ((j, Node [0; 0; 0; 0] v) :: ls) →
    (∀ nd' lv', OK nd' ((pi, Node [if b then s else 0; if b then 0 else s; par; 0] cc) :: cs) ((c, [0; 0; 0]) :: fr) →
       LK lv' ls → Q v (Crit rt nd' lv')) →
    wp (cb_remove_leaf c) (Crit rt nd lv) Q.
  Proof.
    intros Ho Hne Hl HQ. unfold cb_remove_leaf.
    apply wp_bind. eapply wp_gets; [eapply (rd_leaf_index nn (Crit rt nd lv)); [exact Ho|mem]|].
    apply wp_bind. eapply wp_gets. { unfold cb_get_leaf. cbn [cb_leaves]. erewrite CH_get; [|exact Hl|mem]. done. }
    apply wp_bind, wp_onn. eapply wp_clear_register; [exact Ho|done|]. intros nd1 Ho1. rewrite setr3 in Ho1.
    apply wp_bind. eapply wp_gets; [eapply (rd_leaf_index nn (Crit rt nd1 lv)); [exact Ho1|mem]|].
    apply wp_bind, wp_massert; [done|].
    apply wp_bind. eapply wp_gets; [eapply (rd_parent nn (Crit rt nd1 lv)); [exact Ho1|mem]|].
    apply wp_bind. eapply wp_gets; [eapply (rd_left nn (Crit rt nd1 lv)); [exact Ho1|mem]|].
    apply wp_bind. apply wp_mono with (Q := λ _ t', ∃ nd', t' = Crit rt nd' lv ∧
      OK nd' ((c, Node [0; 0; 0; 0] (CNode k 128)) :: (pi, Node [if b then s else 0; if b then 0 else s; par; 0] cc) :: cs) fr).
    { destruct b.
      - rewrite decide_False by done. apply wp_bind. eapply wp_gets; [eapply (rd_right nn (Crit rt nd1 lv)); [exact Ho1|mem]|].
        rewrite decide_True by done. apply wp_onn. eapply wp_disconnect; [exact Ho1|done|done|]. intros nd2 Ho2.
        rewrite setr1, setr2 in Ho2. by exists nd2.
      - rewrite decide_True by done. apply wp_onn. eapply wp_disconnect; [exact Ho1|done|done|]. intros nd2 Ho2.
        rewrite setr0, setr2 in Ho2. by exists nd2. }
    intros _ t' (nd2 & -> & Ho2).
    apply wp_bind, wp_onl. eapply CH_remove_node; [exact _|exact Hl|]. intros lv2 Hl2.
    apply wp_bind, wp_onn. destruct (na_remove_node_ok _ _ _ _ _ _ _ _ _ Ho2) as (nd3 & He & Ho3).
    eapply wp_intro; [exact He|]. apply wp_ret. by apply HQ.
  Qed.

  Lemma migrate_ok rt nd lv S pi par x a b cc rest ls fr (Q : () → critbit → Prop) :
    OK nd ((pi, Node [a; b; par; 0] cc) :: cells S x ++ rest) fr →
    LK lv ls → (∀ c, c ∈ lcells S → c ∈ ls) →
    (∀ nd', OK nd' (cells (reroot pi S) par ++ rest) ((croot S, [0; x; 0]) :: fr) → Q () (Crit rt nd' lv)) →
    wp (cb_migrate (croot S) pi) (Crit rt nd lv) Q.
  Proof.
    intros Ho Hl Hsub HQ. unfold cb_migrate. rewrite cells_eq in Ho. simpl in Ho.
    destruct S as [i k j v|i k p L R]; cbn [croot hnode tcells reroot app] in *.
    - assert (j ≠ 0) as Hj. { eapply CH_nz; [exact Hl|]. apply Hsub. unfold lcells. simpl. mem. }
      apply wp_bind. eapply wp_gets; [eapply (rd_node nn (Crit rt nd lv)); [exact Ho|mem]|].
      apply wp_bind, wp_onn. eapply wp_get_mut; [exact Ho|done|]. intros nd1 Ho1. cbn [regs] in Ho1.
      apply wp_bind. eapply wp_gets; [eapply (rd_inner nn (Crit rt nd1 lv)); [exact Ho1|mem]|].
      rewrite bool_decide_false by done. cbn [negb].
      apply wp_bind. apply wp_bind. eapply wp_gets; [eapply (rd_left nn (Crit rt nd1 lv)); [exact Ho1|mem]|].
      apply wp_bind, wp_massert; [done|].
      apply wp_bind. eapply wp_gets; [eapply (rd_right nn (Crit rt nd1 lv)); [exact Ho1|mem]|].
      apply wp_bind, wp_massert; [done|].
      apply wp_bind. eapply wp_gets; [eapply (rd_leaf_index nn (Crit rt nd1 lv)); [exact Ho1|mem]|].
      apply wp_bind, wp_onn. eapply wp_clear_register; [eapply AOK_perm; [exact Ho1|apply Permutation_swap]|done|].
      intros nd2 Ho2. rewrite setr3 in Ho2.
      apply wp_onn. eapply wp_set_register; [eapply AOK_perm; [exact Ho2|apply Permutation_swap]|done|].
      intros nd3 Ho3. rewrite setr3 in Ho3.
      apply wp_bind. eapply wp_gets; [eapply (rd_leaf_index nn (Crit rt nd3 lv)); [exact Ho3|mem]|].
      apply wp_bind, wp_massert; [done|].
      apply wp_bind. eapply wp_gets; [eapply (rd_left nn (Crit rt nd3 lv)); [exact Ho3|mem]|].
      apply wp_bind, wp_onn. eapply wp_connect_0r; [exact Ho3|done|]. intros nd4 Ho4. rewrite setr0 in Ho4.
      apply wp_bind. eapply wp_gets; [eapply (rd_right nn (Crit rt nd4 lv)); [exact Ho4|mem]|].
      apply wp_bind, wp_onn. eapply wp_connect_0r; [exact Ho4|done|]. intros nd5 Ho5. rewrite setr1 in Ho5.
      apply wp_bind, wp_onn. eapply wp_clear_register; [eapply AOK_perm; [exact Ho5|apply Permutation_swap]|done|].
      intros nd6 Ho6. rewrite setr0 in Ho6.
      apply wp_bind, wp_onn. eapply wp_clear_register; [exact Ho6|done|]. intros nd7 Ho7. rewrite setr1 in Ho7.
      apply wp_bind, wp_onn. destruct (na_remove_node_ok _ _ _ _ _ _ _ _ _ Ho7) as (nd8 & He & Ho8).
      eapply wp_intro; [exact He|]. apply wp_ret. by apply HQ.
    - apply wp_bind. eapply wp_gets; [eapply (rd_node nn (Crit rt nd lv)); [exact Ho|mem]|].
      apply wp_bind, wp_onn. eapply wp_get_mut; [exact Ho|done|]. intros nd1 Ho1. cbn [regs] in Ho1.
      apply wp_bind. eapply wp_gets; [eapply (rd_inner nn (Crit rt nd1 lv)); [exact Ho1|mem]|].
      rewrite bool_decide_true by done. cbn [negb]. apply wp_bind, wp_ret.
      apply wp_bind. eapply wp_gets; [eapply (rd_leaf_index nn (Crit rt nd1 lv)); [exact Ho1|mem]|].
      apply wp_bind, wp_massert; [done|].
      apply wp_bind. eapply wp_gets; [eapply (rd_left nn (Crit rt nd1 lv)); [exact Ho1|mem]|].
      rewrite (cells_eq L i), (cells_eq R i) in Ho1. simpl in Ho1.
      apply wp_bind, wp_onn. eapply wp_connect with (n := Node [a; b; par; 0] (CNode k p)) (m := hnode L i)
        (cs := (i, Node [croot L; croot R; x; 0] (CNode k p)) :: (croot R, hnode R i) :: tcells L ++ tcells R ++ rest).
      { eapply AOK_perm; [exact Ho1|]. generalize (tcells L) (tcells R) (hnode L i) (hnode R i). intros. solve_Permutation. }
      { done. } { by destruct L. }
      intros nd2 Ho2. rewrite setr0 in Ho2.
      apply wp_bind. eapply wp_gets; [eapply (rd_right nn (Crit rt nd2 lv)); [exact Ho2|mem]|].
      apply wp_bind, wp_onn. eapply wp_connect with (n := Node [croot L; b; par; 0] (CNode k p)) (m := hnode R i)
        (cs := (i, Node [croot L; croot R; x; 0] (CNode k p)) :: (croot L, setr Parent pi (hnode L i)) :: tcells L ++ tcells R ++ rest).
      { eapply AOK_perm; [exact Ho2|]. generalize (tcells L) (tcells R) (setr Parent pi (hnode L i)) (hnode R i). intros. solve_Permutation. }
      { done. } { by destruct R. }
      intros nd3 Ho3. rewrite setr1 in Ho3.
      assert (setr Parent pi (hnode L i) = hnode L pi) as E1 by (by destruct L).
      assert (setr Parent pi (hnode R i) = hnode R pi) as E2 by (by destruct R).
      rewrite E1, E2 in Ho3.
      assert (OK nd3 ((i, Node [croot L; croot R; x; 0] (CNode k p)) :: cells (CI pi k p L R) par ++ rest) fr) as Ho4.
      { cbn [cells]. rewrite (cells_eq L pi), (cells_eq R pi). simpl. eapply AOK_perm; [exact Ho3|].
        generalize (tcells L) (tcells R) (hnode L pi) (hnode R pi). intros. solve_Permutation. }
      apply wp_bind, wp_onn. eapply wp_clear_register; [exact Ho4|done|]. intros nd5 Ho5. rewrite setr0 in Ho5.
      apply wp_bind, wp_onn. eapply wp_clear_register; [exact Ho5|done|]. intros nd6 Ho6. rewrite setr1 in Ho6.
      apply wp_bind, wp_onn. destruct (na_remove_node_ok _ _ _ _ _ _ _ _ _ Ho6) as (nd8 & He & Ho8).
      eapply wp_intro; [exact He|]. apply wp_ret. by apply HQ.
  Qed.

  (** the whole removal *)
  Lemma fr_cells ctx (b : bool) pi kk p S i k j v :
    cells (plug (Fr b pi kk p S :: ctx) (CL i k j v)) 0 ≡ₚ
      (i, Node [0; 0; pi; j] (CNode k 128)) ::
      (pi, Node [if b then croot S else i; if b then i else croot S; cpar ctx; 0] (CNode kk p)) ::
      cells S pi ++ ccells ctx pi.
  Proof. rewrite cells_plug. simpl. by destruct b. Qed.
  Lemma fr_lcells ctx (b : bool) pi kk p S i k j v :
    lcells (plug (Fr b pi kk p S :: ctx) (CL i k j v)) ≡ₚ (j, Node [0; 0; 0; 0] v) :: lcells (plug ctx (reroot pi S)).
  Proof.
    unfold lcells. simpl. rewrite !ents_plug, !map_app.
    change (map lcell (ents (reroot pi S))) with (lcells (reroot pi S)). rewrite lcells_reroot.
    generalize (map (@lcell V) (entsL ctx)) (map (@lcell V) (entsR ctx)). intros A B.
    destruct b; simpl; rewrite ?map_app; simpl; change (map lcell (ents S)) with (lcells S);
      change (lcell (i, (j, (k, v)))) with (j, Node [0; 0; 0; 0] v); generalize (lcells S); intros C; solve_Permutation.
  Qed.

  Lemma remove_inner_ok t ctx (b : bool) pi kk p S i k j v (Q : option V → critbit → Prop) :
    crep nn cap t (plug (Fr b pi kk p S :: ctx) (CL i k j v)) →
    (∀ t', crep nn cap t' (plug ctx (reroot pi S)) → Q (Some v) t') →
    wp (sibling ← (if b then gets (λ t, cb_get_left t pi) else gets (λ t, cb_get_right t pi));
        leaf ← cb_remove_leaf i;
        cb_migrate sibling pi;;
        t' ← mget;
        dn ← lift (u64_sub (size (cb_nodes t)) (size (cb_nodes t')));
        massert (bool_decide (dn = 2));;
        dl ← lift (u64_sub (size (cb_leaves t)) (size (cb_leaves t')));
        massert (bool_decide (dl = 1));;
        mret (Some leaf)) t Q.
  Proof.
    intros [Hr (fr & Ho & Hf) Hl] HQ. destruct t as [rt nd lv]. cbn [cb_root cb_nodes cb_leaves] in *.
    rewrite fr_cells in Ho. rewrite fr_lcells in Hl.
    assert (croot S ≠ i) as Hne.
    { pose proof (AOK_NoDup _ _ _ _ _ Ho) as Hnd. cbn [fmap list_fmap fst] in Hnd. apply NoDup_cons in Hnd as [Hni _].
      intros He. apply Hni. apply elem_of_cons. right. rewrite cells_eq. simpl. rewrite He. apply elem_of_list_here. }
    apply wp_bind. apply wp_mono with (Q := λ s t', s = croot S ∧ t' = Crit rt nd lv).
    { destruct b; (eapply wp_gets; [|done]); [eapply (rd_left nn (Crit rt nd lv))|eapply (rd_right nn (Crit rt nd lv))]; try exact Ho; mem. }
    intros s t' [-> ->].
    apply wp_bind. eapply remove_leaf_ok; [exact Ho|done|exact Hl|]. intros nd1 lv1 Ho1 Hl1.
    apply wp_bind. eapply migrate_ok; [exact Ho1|exact Hl1| |].
    { intros c Hc. unfold lcells. rewrite ents_plug, !map_app.
      change (map lcell (ents (reroot pi S))) with (lcells (reroot pi S)). rewrite lcells_reroot. rewrite !elem_of_app. auto. }
    intros nd2 Ho2. apply wp_bind, wp_mget. cbn [cb_nodes cb_leaves].
    pose proof (ok_size _ _ _ _ _ Ho) as S1. pose proof (ok_size _ _ _ _ _ Ho2) as S2.
    rewrite cells_eq in S2. rewrite cells_eq in S1. simpl app in S1, S2. rewrite !lengthN_cons in S1. rewrite lengthN_cons in S2.
    rewrite !lengthN_app in S1, S2.
    assert (lengthN (tcells (reroot pi S)) = lengthN (tcells S)) as S3.
    { pose proof (cells_length S 0) as L1. pose proof (cells_length (reroot pi S) 0) as L2.
      assert (csize (reroot pi S) = csize S) as L3 by (by destruct S). rewrite cells_eq in L1, L2. simpl in L1, L2. unfold lengthN. lia. }
    rewrite S3 in S2.
    pose proof (CH_size _ _ _ _ Hl) as T1. pose proof (CH_size _ _ _ _ Hl1) as T2. rewrite lengthN_cons in T1.
    apply wp_bind. eapply wp_lift; [unfold u64_sub; rewrite u_sub_ok; [done|lia]|].
    apply wp_bind, wp_massert; [apply bool_decide_eq_true; lia|].
    apply wp_bind. eapply wp_lift; [unfold u64_sub; rewrite u_sub_ok; [done|lia]|].
    apply wp_bind, wp_massert; [apply bool_decide_eq_true; lia|].
    apply wp_ret. apply HQ. constructor; cbn [cb_root cb_nodes cb_leaves].
    - rewrite Hr. simpl. apply croot_plug. rewrite croot_reroot. by destruct b.
    - eexists. split; [rewrite cells_plug, croot_reroot; exact Ho2|]. constructor; [by eexists|]. constructor; [by eexists|done].
    - done.
  Qed.

  Lemma remove_root_ok t i k j v (Q : option V → critbit → Prop) :
    crep nn cap t (CL i k j v) → (∀ t', cempty nn cap t' → Q (Some v) t') →
    wp (modify (set_croot SENTINEL);; t' ← mget; massert (bool_decide (cb_len t' = 1));; v ← cb_remove_leaf i; mret (Some v)) t Q.
  Proof.
    intros [Hr (fr & Ho & Hf) Hl] HQ. destruct t as [rt nd lv]. cbn [cb_root cb_nodes cb_leaves cells] in *.
    apply wp_bind, wp_modify. apply wp_bind, wp_mget. cbn [set_croot cb_nodes cb_leaves].
    apply wp_bind, wp_massert. { apply bool_decide_eq_true. change (size lv = 1). by rewrite (CH_size _ _ _ _ Hl). }
    assert (i ≠ 0) as Hi by (eapply AOK_nz; [exact Ho|mem]).
    change (lcells (CL i k j v)) with [(j, Node [0; 0; 0; 0] v)] in Hl.
    apply wp_bind. unfold cb_remove_leaf.
    apply wp_bind. eapply wp_gets; [eapply (rd_leaf_index nn (Crit 0 nd lv)); [exact Ho|mem]|].
    apply wp_bind. eapply wp_gets. { unfold cb_get_leaf. cbn [cb_leaves]. erewrite CH_get; [|exact Hl|mem]. done. }
    apply wp_bind, wp_onn. eapply wp_clear_register; [exact Ho|done|]. intros nd1 Ho1. rewrite setr3 in Ho1.
    apply wp_bind. eapply wp_gets; [eapply (rd_leaf_index nn (Crit 0 nd1 lv)); [exact Ho1|mem]|].
    apply wp_bind, wp_massert; [done|].
    apply wp_bind. eapply wp_gets; [eapply (rd_parent nn (Crit 0 nd1 lv)); [exact Ho1|mem]|].
    apply wp_bind. eapply wp_gets; [done|].
    apply wp_bind. rewrite decide_False by done. apply wp_bind. eapply wp_gets; [done|].
    rewrite decide_False by done. rewrite decide_False by (intros Hx; by apply Hx). apply wp_ret.
    apply wp_bind, wp_onl. eapply CH_remove_node; [exact _|exact Hl|]. intros lv2 Hl2.
    apply wp_bind, wp_onn. destruct (na_remove_node_ok _ _ _ _ _ _ _ _ _ Ho1) as (nd3 & He & Ho3).
    eapply wp_intro; [exact He|]. apply wp_ret. apply wp_ret. apply HQ. constructor; cbn [cb_root cb_nodes cb_leaves]; [done| |done].
    eexists. split; [exact Ho3|]. split; [|done]. constructor; [by eexists|done].
  Qed.

  Lemma om_find_notin k (l : list (N * V)) : k ∉ l.*1 → om_find N.compare k l = None ∧ om_remove N.compare k l = l.
  Proof.
    induction l as [|[k' v'] l IH]; simpl; [done|]. intros [Hne Hn]%not_elem_of_cons. destruct (IH Hn) as [-> ->].
    destruct (N.compare_spec k k'); [done|split; done|split; done].
  Qed.
  Lemma reroot_wf ctx (b : bool) pi kk p S i k j v :
    wf (plug (Fr b pi kk p S :: ctx) (CL i k j v)) → wf (plug ctx (reroot pi S)).
  Proof.
    intros Hw. pose proof (proj1 (wf_plug _ _) Hw) as (_ & (_ & _ & _ & Hs & Ha & Hc) & _).
    apply wf_plug. rewrite wf_reroot, keys_reroot. done.
  Qed.
  Lemma reroot_kvs ctx (b : bool) pi kk p S i k j v :
    wf (plug (Fr b pi kk p S :: ctx) (CL i k j v)) →
    kvs (plug ctx (reroot pi S)) = om_remove N.compare k (kvs (plug (Fr b pi kk p S :: ctx) (CL i k j v))) ∧
    om_get N.compare k (kvs (plug (Fr b pi kk p S :: ctx) (CL i k j v))) = Some v.
  Proof.
    intros Hw. pose proof (wf_asc _ Hw) as Ha. rewrite (kvs_plug (Fr b pi kk p S :: ctx)) in *.
    change (kvs (CL i k j v) ++ ?r) with ((k, v) :: r) in *.
    apply (ascending_mid _ N_laws) in Ha as (_ & _ & Hb & _). simpl in Hb.
    unfold om_get. rewrite om_remove_found, om_find_found by (done || apply N.compare_refl). split; [|done].
    rewrite kvs_plug, kvs_reroot. simpl. destruct b; rewrite !fmap_app; simpl; rewrite ?app_nil_r, <- ?app_assoc; done.
  Qed.

  Lemma remove_ok t U k (Q : option V → critbit → Prop) :
    crep nn cap t U → wf U → k < W128 →
    (om_get N.compare k (kvs U) = None → om_remove N.compare k (kvs U) = kvs U → Q None t) →
    (∀ i j v t', U = CL i k j v → cempty nn cap t' → Q (Some v) t') →
    (∀ ctx b pi kk p S i j v t', U = plug (Fr b pi kk p S :: ctx) (CL i k j v) →
       crep nn cap t' (plug ctx (reroot pi S)) → Q (Some v) t') →
    wp (cb_remove k) t Q.
  Proof.
    intros HR Hw Hk HQ0 HQ1 HQ2. unfold cb_remove. apply wp_bind, wp_mget. cbv zeta.
    destruct (crep_nonempty _ _ _ _ HR) as (_ & Hne & _). rewrite decide_False by done.
    pose proof (cr_nodes _ _ _ _ HR) as (fr & Ho & Hfr). pose proof (cr_leaves _ _ _ _ HR) as Hl.
    rewrite (cr_root _ _ _ _ HR).
    assert (k ∉ keys U → wp (mret None) t Q) as Habs.
    { intros Hn. apply wp_ret. unfold keys in Hn. apply om_find_notin in Hn as [H1 H2]. apply HQ0; [|done].
      unfold om_get. by rewrite H1. }
    destruct U as [i kk j v|i kk p l r].
    - apply wp_bind. eapply wp_gets; [exact (rd_inner _ _ _ _ Ho _ _ _ _ _ _ (CL_cell [] _ _ _ _))|].
      rewrite bool_decide_false by (eapply CH_nz; [exact Hl|apply (lcell_in [])]).
      apply wp_bind. eapply wp_gets; [exact (rd_node _ _ _ _ Ho _ _ _ _ _ _ (CL_cell [] _ _ _ _))|]. cbn [cn_key].
      destruct (decide (kk = k)) as [->|Hnk].
      + eapply remove_root_ok; [exact HR|]. intros t' Ht'. by eapply HQ1.
      + apply Habs. unfold keys. simpl. intros Hx%elem_of_list_singleton. congruence.
    - apply wp_bind. eapply wp_gets; [exact (rd_inner _ _ _ _ Ho _ _ _ _ _ _ (CI_cell [] _ _ _ _ _))|].
      rewrite bool_decide_true by done.
      apply wp_bind. eapply wp_gets; [exact (rd_node _ _ _ _ Ho _ _ _ _ _ _ (CI_cell [] _ _ _ _ _))|]. cbn [cn_prefix_len].
      pose proof Hw as (Hp & _ & _ & _ & Hwl & Hwr).
      apply wp_bind. eapply wp_gets; [exact (rd_child _ _ _ _ Ho _ _ _ _ _ _ (CI_cell [] _ _ _ _ _) p k Hp)|]. cbn [fst snd].
      pose proof (crep_fuel _ _ _ _ HR) as Hfu. simpl in Hfu.
      assert (∃ ctx U', plug ctx U' = CI i kk p l r ∧ (ctx = [Fr true i kk p l] ∧ bit k p = true ∧ U' = r ∨
                ctx = [Fr false i kk p r] ∧ bit k p = false ∧ U' = l) ∧
              croot U' = (if bit k p then croot r else croot l) ∧ side ctx = bit k p ∧ cpar ctx = i ∧ wf U' ∧
              (csize U' ≤ cb_fuel t)%nat ∧ rdesc k ctx U' = rdesc k [] (CI i kk p l r)) as
        (ctx & U' & Hpl & Hcase & Hroot & Hside & Hpar & HwU & HfU & Hrd).
      { simpl. destruct (bit k p).
        - exists [Fr true i kk p l], r. split_and!; try done; [by left|lia].
        - exists [Fr false i kk p r], l. split_and!; try done; [by right|lia]. }
      apply wp_bind. eapply wp_gets.
      { simpl croot. rewrite <- Hroot, <- Hside. rewrite <- Hpar. eapply remove_walk_ok; [by rewrite Hpl..|done|]. etrans; [apply cheight_csize|done]. }
      rewrite Hrd. pose proof (rdesc_leaf k ctx U') as (ctx' & i' & k' & j' & v' & He & Hlen). rewrite Hrd in He.
      pose proof (rdesc_plug k [] (CI i kk p l r)) as Hpl'. pose proof (rdesc_key k [] (CI i kk p l r) Hw) as Hkey.
      rewrite He in Hpl', Hkey |- *. cbn [fst snd] in *. simpl in Hpl'.
      destruct (decide (k' ≠ k)) as [Hnk|Hek].
      + apply Habs. intros Hin. apply Hkey in Hin. unfold keys in Hin. simpl in Hin. apply elem_of_list_singleton in Hin. congruence.
      + assert (k' = k) as -> by (destruct (decide (k' = k)); [done|by exfalso; apply Hek]).
        destruct ctx' as [|[b pi kk' p' S] ctx'].
        { exfalso. destruct Hcase as [(-> & _)|(-> & _)]; simpl in Hlen; lia. }
        cbn [cpar side]. rewrite <- Hpl' in HR.
        eapply remove_inner_ok; [exact HR|]. intros t' HR'. eapply HQ2; [by rewrite <- Hpl'|exact HR'].
  Qed.
End rem.
