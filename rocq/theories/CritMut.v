(** * Critbit: insertion and removal *)
From Verif Require Export CritOps.

Section mut.
  Context `{Profile} {V : Type} {G : Ghost V} `{GA : !GAdd G} (nn cap : N).
  Notation critbit := (critbit V).
  Notation ctree := (ctree V).
  Notation OK := (AOK 4 nn).
  Notation LK := (CH 4 cap).
  Implicit Types t : critbit.
  Implicit Types U : ctree.
  Implicit Types cs : list (N * node cnode).
  Implicit Types ls : list (N * node V).
  Implicit Types ctx : list (frame V).

  Lemma setr0 {T} (a b c d x : N) (y : T) : setr Left x (Node [a; b; c; d] y) = Node [x; b; c; d] y. Proof. done. Qed.
  Lemma setr1 {T} (a b c d x : N) (y : T) : setr Right x (Node [a; b; c; d] y) = Node [a; x; c; d] y. Proof. done. Qed.
  Lemma setr2 {T} (a b c d x : N) (y : T) : setr Parent x (Node [a; b; c; d] y) = Node [a; b; x; d] y. Proof. done. Qed.
  Lemma setr3 {T} (a b c d x : N) (y : T) : setr FValue x (Node [a; b; c; d] y) = Node [a; b; c; x] y. Proof. done. Qed.

  Definition ztop (fr : list (N * list N)) : Prop := match fr with [] => True | f :: _ => f.2 = [0; 0; 0] end.

  Lemma add_node_ok nd cs fr c (Q : N → alloc cnode → Prop) :
    OK nd cs fr → frok fr → lengthN cs < nn →
    (∀ i x fr' nd', OK nd' ((i, Node [0; 0; x; 0] c) :: cs) fr' → frok fr' → (ztop fr → x = 0) → Q i nd') →
    wp (na_add_node c) nd Q.
  Proof.
    intros Ho Hf Hl HQ. destruct (na_add_node_ok _ _ _ _ _ c Ho Hl) as (i & tl & fr' & nd' & He & Ho' & Hx).
    eapply wp_intro; [exact He|]. destruct fr as [|[j tl'] fr].
    - destruct Hx as (-> & -> & ->). eapply HQ; [exact Ho'|constructor|done].
    - destruct Hx as (-> & -> & ->). apply Forall_cons in Hf as [[x Hx] Hf]. simpl in Hx. subst tl'.
      eapply HQ; [exact Ho'|done|]. simpl. by intros [= ->].
  Qed.

  Lemma add_leaf_ok rt nd lv cs ls fr k v (Q : N * N → critbit → Prop) :
    OK nd cs fr → frok fr → LK lv ls → lengthN cs < nn → lengthN ls < cap →
    (∀ i j x fr' nd' lv', OK nd' ((i, Node [0; 0; x; j] (CNode k 128)) :: cs) fr' → frok fr' →
       LK lv' ((j, Node [0; 0; 0; 0] v) :: ls) → (ztop fr → x = 0) → Q (i, j) (Crit rt nd' lv')) →
    wp (cb_add_leaf k v) (Crit rt nd lv) Q.
  Proof.
    intros Ho Hf Hl Hcn Hcl HQ. unfold cb_add_leaf.
    apply wp_bind, wp_onn. eapply add_node_ok; [done..|]. intros i x fr1 nd1 Ho1 Hf1 Hx1.
    apply wp_bind, wp_onl. eapply CH_add_node; [exact _|done..|]. intros j lv1 Hl1.
    apply wp_bind, wp_onn. eapply wp_set_register; [exact Ho1|done|]. intros nd2 Ho2.
    apply wp_bind, wp_onl. eapply CH_get_mut; [exact _|exact Hl1|done|]. intros lv2 Hl2.
    rewrite setr3 in Ho2. cbn in Hl2. apply wp_ret. by eapply HQ.
  Qed.

  (** [duplicate]: the contents and children of node [i] move to a new node [m]; node [i] keeps (stale) copies *)
  Lemma duplicate_ok rt nd lv U par rest fr (Q : N → critbit → Prop) :
    OK nd (cells U par ++ rest) fr → frok fr → (csize U + length rest < N.to_nat nn)%nat →
    (∀ m x fr' nd', OK nd' ((m, hnode U x) :: (croot U, hnode U par) :: tcells (reroot m U) ++ rest) fr' → frok fr' →
       Q m (Crit rt nd' lv)) →
    wp (cb_duplicate (croot U)) (Crit rt nd lv) Q.
  Proof.
    intros Ho Hf Hcn HQ. unfold cb_duplicate. rewrite cells_eq in Ho. simpl in Ho.
    assert (∃ l r j, hnode U par = Node [l; r; par; j] (CNode (rkey U) (rplen U))) as (l & r & j & Hh) by (destruct U; eauto).
    assert ((croot U, Node [l; r; par; j] (CNode (rkey U) (rplen U))) ∈ (croot U, hnode U par) :: tcells U ++ rest) as Hin'.
    { rewrite <- Hh. mem. }
    apply wp_bind. eapply wp_gets; [exact (rd_node nn (Crit rt nd lv) _ _ Ho _ _ _ _ _ _ Hin')|].
    apply wp_bind, wp_onn. eapply add_node_ok; [done..| |].
    { unfold lengthN. simpl. rewrite app_length. pose proof (cells_length U 0) as Hl. rewrite cells_eq in Hl. simpl in Hl. lia. }
    intros m x fr1 nd1 Ho1 Hf1 _.
    assert ((croot U, Node [l; r; par; j] (CNode (rkey U) (rplen U))) ∈
      (m, Node [0; 0; x; 0] (CNode (rkey U) (rplen U))) :: (croot U, hnode U par) :: tcells U ++ rest) as Hin1.
    { rewrite <- Hh. mem. }
    apply wp_bind. eapply wp_gets; [exact (rd_left nn (Crit rt nd1 lv) _ _ Ho1 _ _ _ _ _ _ Hin1)|].
    apply wp_bind. eapply wp_gets; [exact (rd_right nn (Crit rt nd1 lv) _ _ Ho1 _ _ _ _ _ _ Hin1)|].
    apply wp_bind. eapply wp_gets; [exact (rd_value nn (Crit rt nd1 lv) _ _ Ho1 _ _ _ _ _ _ Hin1)|].
    apply wp_bind, wp_onn. eapply wp_set_register; [exact Ho1|done|]. intros nd2 Ho2. rewrite setr3 in Ho2.
    destruct U as [i k j0 v0|i k p L R]; simpl in Hh; simplify_eq/=.
    - apply wp_bind, wp_onn. eapply wp_connect_0r; [exact Ho2|done|]. intros nd3 Ho3. rewrite setr0 in Ho3.
      apply wp_bind, wp_onn. eapply wp_connect_0r; [exact Ho3|done|]. intros nd4 Ho4. rewrite setr1 in Ho4.
      apply wp_ret. by eapply HQ.
    - rewrite (cells_eq L i), (cells_eq R i) in Ho2. simpl in Ho2.
      apply wp_bind, wp_onn. eapply wp_connect with (n := Node [0; 0; x; 0] (CNode k p)) (m := hnode L i)
        (cs := (i, Node [croot L; croot R; par; 0] (CNode k p)) :: (croot R, hnode R i) :: tcells L ++ tcells R ++ rest).
      { eapply AOK_perm; [exact Ho2|]. generalize (tcells L) (tcells R) (hnode L i) (hnode R i). intros. solve_Permutation. }
      { done. } { by destruct L. }
      intros nd3 Ho3.
      apply wp_bind, wp_onn. eapply wp_connect with (n := setr Left (croot L) (Node [0; 0; x; 0] (CNode k p))) (m := hnode R i)
        (cs := (i, Node [croot L; croot R; par; 0] (CNode k p)) :: (croot L, setr Parent m (hnode L i)) :: tcells L ++ tcells R ++ rest).
      { eapply AOK_perm; [exact Ho3|]. generalize (tcells L) (tcells R) (setr Parent m (hnode L i)) (hnode R i).
        generalize (setr Left (croot L) (Node [0; 0; x; 0] (CNode k p))). intros. solve_Permutation. }
      { done. } { by destruct R. }
      intros nd4 Ho4. apply wp_ret. eapply HQ; [|exact Hf1].
      assert (setr Parent m (hnode L i) = hnode L m) as E1 by (by destruct L).
      assert (setr Parent m (hnode R i) = hnode R m) as E2 by (by destruct R).
      rewrite E1, E2 in Ho4. rewrite setr0, setr1 in Ho4. simpl. rewrite (cells_eq L m), (cells_eq R m). simpl.
      eapply AOK_perm; [exact Ho4|]. generalize (tcells L) (tcells R) (hnode L m) (hnode R m). intros. solve_Permutation.
  Qed.

  Lemma replace_node_ok rt nd lv i c l r c0 l0 r0 par j0 nl nr rest fr (Q : () → critbit → Prop) :
    OK nd ((i, Node [l0; r0; par; j0] c0) :: (l, nl) :: (r, nr) :: rest) fr →
    length (regs nl) = 4%nat → length (regs nr) = 4%nat →
    (∀ nd', OK nd' ((i, Node [l; r; par; 0] c) :: (l, setr Parent i nl) :: (r, setr Parent i nr) :: rest) fr → Q () (Crit rt nd' lv)) →
    wp (cb_replace_node i c l r) (Crit rt nd lv) Q.
  Proof.
    intros Ho Hnl Hnr HQ. unfold cb_replace_node.
    apply wp_bind, wp_onn. eapply wp_get_mut; [exact Ho|done|]. intros nd1 Ho1. cbn in Ho1.
    apply wp_bind, wp_onn. eapply wp_clear_register; [exact Ho1|done|]. intros nd2 Ho2. rewrite setr3 in Ho2.
    apply wp_bind, wp_onn. eapply wp_connect; [exact Ho2|done|by unfold lengthN; rewrite Hnl|]. intros nd3 Ho3.
    rewrite setr0 in Ho3.
    apply wp_onn. eapply wp_connect with (n := Node [l; r0; par; 0] c) (m := nr)
      (cs := (l, setr Parent i nl) :: rest); [|done|by unfold lengthN; rewrite Hnr|].
    { eapply AOK_perm; [exact Ho3|]. generalize (setr Parent i nl). intros. solve_Permutation. }
    intros nd4 Ho4. apply HQ. eapply AOK_perm; [exact Ho4|]. rewrite setr1.
    generalize (setr Parent i nl) (setr Parent i nr). intros. solve_Permutation.
  Qed.

  (** the end of the insertion loop: node [U] is split *)
  Definition split_tree U (nl m j k : N) (v : V) : ctree :=
    let s := leading_zeros128 (N.lxor (rkey U) k) in
    if bit k s then CI (croot U) k s (reroot m U) (CL nl k j v) else CI (croot U) k s (CL nl k j v) (reroot m U).
  Lemma split_ok rt nd lv U par rest ls fr k v (Q : option N → critbit → Prop) :
    OK nd (cells U par ++ rest) fr → frok fr → LK lv ls → lengthN ls < cap → (csize U + length rest + 2 ≤ N.to_nat nn)%nat →
    leading_zeros128 (N.lxor (rkey U) k) < 128 →
    (∀ nl m j fr' nd' lv', OK nd' (cells (split_tree U nl m j k v) par ++ rest) fr' → frok fr' →
       LK lv' ((j, Node [0; 0; 0; 0] v) :: ls) → Q (Some nl) (Crit rt nd' lv')) →
    wp (mask ← lift (crit_bit_mask (leading_zeros128 (N.lxor (rkey U) k)));
        let is_right := bool_decide (N.land mask k ≠ 0) in
        nl ← cb_add_leaf k v;
        let node_leaf_index := nl.1 in
        moved_node_index ← cb_duplicate (croot U);
        let new_node := CNode k (leading_zeros128 (N.lxor (rkey U) k)) in
        (if is_right
         then cb_replace_node (croot U) new_node moved_node_index node_leaf_index
         else cb_replace_node (croot U) new_node node_leaf_index moved_node_index);;
        mret (Some node_leaf_index)) (Crit rt nd lv) Q.
  Proof.
    intros Ho Hf Hl Hcl Hcn Hs HQ. unfold split_tree in HQ. set (s := leading_zeros128 (N.lxor (rkey U) k)) in *.
    apply wp_bind. eapply wp_lift; [by apply crit_mask_ok|]. cbv zeta. rewrite N.land_comm, land_mask_bit.
    apply wp_bind. eapply add_leaf_ok; [done..| |done|].
    { unfold lengthN. rewrite app_length, cells_length. lia. }
    intros nl j x fr1 nd1 lv1 Ho1 Hf1 Hl1 _. cbn [fst].
    apply wp_bind.
    eapply duplicate_ok with (U := U) (par := par) (rest := (nl, Node [0; 0; x; j] (CNode k 128)) :: rest).
    { eapply AOK_perm; [exact Ho1|]. apply Permutation_middle. }
    { done. } { simpl. lia. }
    intros m y fr2 nd2 Ho2 Hf2.
    assert (∃ l r j', hnode U par = Node [l; r; par; j'] (CNode (rkey U) (rplen U))) as (l & r & j' & Hh) by (destruct U; eauto).
    rewrite Hh in Ho2.
    assert (setr Parent (croot U) (hnode U y) = hnode U (croot U)) as E1 by (by destruct U).
    assert (hnode (reroot m U) (croot U) = hnode U (croot U)) as E2 by (by destruct U).
    assert (length (regs (hnode U y)) = 4%nat) as E3 by (by destruct U).
    destruct (bit k s).
    - apply wp_bind. eapply replace_node_ok with (nl := hnode U y) (nr := Node [0; 0; x; j] (CNode k 128)) (l0 := l) (r0 := r) (j0 := j')
        (par := par) (c0 := CNode (rkey U) (rplen U)) (rest := tcells (reroot m U) ++ rest).
      { eapply AOK_perm; [exact Ho2|]. generalize (tcells (reroot m U)) (hnode U y). intros. solve_Permutation. }
      { done. } { done. }
      intros nd3 Ho3. apply wp_ret. eapply HQ; [|exact Hf2|exact Hl1]. rewrite E1 in Ho3. cbn [cells croot].
      rewrite croot_reroot, (cells_eq (reroot m U)), croot_reroot, E2.
      rewrite setr2 in Ho3.
      eapply AOK_perm; [exact Ho3|]. generalize (tcells (reroot m U)) (hnode U (croot U)). intros. solve_Permutation.
    - apply wp_bind. eapply replace_node_ok with (nr := hnode U y) (nl := Node [0; 0; x; j] (CNode k 128)) (l0 := l) (r0 := r) (j0 := j')
        (par := par) (c0 := CNode (rkey U) (rplen U)) (rest := tcells (reroot m U) ++ rest).
      { eapply AOK_perm; [exact Ho2|]. generalize (tcells (reroot m U)) (hnode U y). intros. solve_Permutation. }
      { done. } { done. }
      intros nd3 Ho3. apply wp_ret. eapply HQ; [|exact Hf2|exact Hl1]. rewrite E1 in Ho3. cbn [cells croot].
      rewrite croot_reroot, (cells_eq (reroot m U)), croot_reroot, E2.
      rewrite setr2 in Ho3.
      eapply AOK_perm; [exact Ho3|]. generalize (tcells (reroot m U)) (hnode U (croot U)). intros. solve_Permutation.
  Qed.

  Lemma croot_split U nl m j k v : croot (split_tree U nl m j k v) = croot U.
  Proof. unfold split_tree. by case_match. Qed.
  Lemma lcells_split ctx U nl m j k v :
    lcells (plug ctx (split_tree U nl m j k v)) ≡ₚ (j, Node [0; 0; 0; 0] v) :: lcells (plug ctx U).
  Proof.
    unfold lcells. rewrite !ents_plug, !map_app.
    change (map lcell (ents (split_tree U nl m j k v))) with (lcells (split_tree U nl m j k v)).
    change (map lcell (ents U)) with (lcells U).
    generalize (map (@lcell V) (entsL ctx)) (map (@lcell V) (entsR ctx)). intros A B.
    unfold split_tree. case_match; rewrite lcells_CI, lcells_reroot; unfold lcells at 2; simpl map;
      change (lcell (nl, (j, (k, v)))) with (j, Node [0; 0; 0; 0] v).
    - rewrite <- (app_assoc (lcells U)). simpl. generalize (lcells U). intros C. solve_Permutation.
    - unfold lcells at 1. simpl. change (map lcell (ents U)) with (lcells U). generalize (lcells U). intros C. solve_Permutation.
  Qed.

  Lemma insert_loop_ok fuel t ctx U k v (Q : option N → critbit → Prop) :
    crep nn cap t (plug ctx U) → wf U → k < W128 → (cheight U ≤ fuel)%nat →
    lengthN (lcells (plug ctx U)) < cap → 2 * cap ≤ nn →
    (∀ i j v0 t', (descend k ctx U).2 = CL i k j v0 → crep nn cap t' (plug (descend k ctx U).1 (CL i k j v)) → Q (Some i) t') →
    (∀ nl m j t', hit k (descend k ctx U).2 = false →
       crep nn cap t' (plug (descend k ctx U).1 (split_tree (descend k ctx U).2 nl m j k v)) → Q (Some nl) t') →
    wp (cb_insert_loop fuel k v (croot U)) t Q.
  Proof.
    revert ctx U. induction fuel as [|fuel IH]; intros ctx U HR Hw Hk Hf Hc Hn HQ1 HQ2; [destruct U; simpl in Hf; lia|].
    cbn [cb_insert_loop].
    pose proof (cr_nodes _ _ _ _ HR) as (fr & Ho & Hfr). pose proof (cr_leaves _ _ _ _ HR) as Hl.
    assert (∀ (Hs : leading_zeros128 (N.lxor (rkey U) k) < 128) (Hd : descend k ctx U = (ctx, U)) (Hh : hit k U = false),
      wp (mask ← lift (crit_bit_mask (leading_zeros128 (N.lxor (rkey U) k)));
        let is_right := bool_decide (N.land mask k ≠ 0) in
        nl ← cb_add_leaf k v;
        let node_leaf_index := nl.1 in
        moved_node_index ← cb_duplicate (croot U);
        let new_node := CNode k (leading_zeros128 (N.lxor (rkey U) k)) in
        (if is_right
         then cb_replace_node (croot U) new_node moved_node_index node_leaf_index
         else cb_replace_node (croot U) new_node node_leaf_index moved_node_index);;
        mret (Some node_leaf_index)) t Q) as Hsplit.
    { intros Hs Hd Hh. rewrite Hd in HQ2. destruct t as [rt nd lv]. cbn [cb_nodes cb_leaves] in Ho, Hl.
      rewrite cells_plug in Ho.
      eapply (split_ok rt nd lv U (cpar ctx) (ccells ctx (croot U))); try done.
      - pose proof (Permutation_length (cells_plug ctx U)) as Hp. rewrite app_length, !cells_length in Hp.
        pose proof (csize_ents (plug ctx U)). unfold lengthN, lcells in Hc. rewrite map_length in Hc. lia.
      - intros nl m j fr' nd' lv' Ho' Hf' Hl'. apply HQ2 with (m := m) (j := j); [done|]. constructor.
        + simpl. pose proof (cr_root _ _ _ _ HR) as Hr. simpl in Hr. rewrite Hr. apply croot_plug. by rewrite croot_split.
        + exists fr'. split; [|done]. simpl. rewrite cells_plug, croot_split. done.
        + simpl. by rewrite lcells_split. }
    destruct U as [i kk j v0|i kk p l r].
    - apply wp_bind. eapply wp_gets; [exact (rd_node _ _ _ _ Ho _ _ _ _ _ _ (CL_cell _ _ _ _ _))|]. cbn [cn_key cn_prefix_len].
      destruct (decide (kk = k)) as [->|Hne].
      + apply wp_bind, wp_bind. eapply wp_gets; [exact (rd_inner _ _ _ _ Ho _ _ _ _ _ _ (CL_cell _ _ _ _ _))|].
        rewrite bool_decide_false by (eapply CH_nz; [exact Hl|apply lcell_in]). apply wp_ret. cbn [negb].
        apply wp_bind. eapply wp_gets; [exact (rd_leaf_index _ _ _ _ Ho _ _ _ _ _ _ (CL_cell _ _ _ _ _))|].
        apply wp_bind. eapply replace_leaf_ok; [exact HR|]. intros t' HR' _ _. apply wp_ret. by eapply HQ1.
      + apply wp_bind, wp_ret. cbn [negb]. pose proof (lz_lt kk k Hw Hk Hne) as Hlz.
        destruct (decide (128 ≤ leading_zeros128 (N.lxor kk k))) as [Hd|Hd]; [lia|].
        apply Hsplit; [done|done|]. by apply bool_decide_eq_false.
    - destruct Hw as (Hp & Hkk & _ & _ & Hwl & Hwr).
      apply wp_bind. eapply wp_gets; [exact (rd_node _ _ _ _ Ho _ _ _ _ _ _ (CI_cell _ _ _ _ _ _))|]. cbn [cn_key cn_prefix_len].
      apply wp_bind. apply wp_mono with (Q := λ b t', b = false ∧ t' = t).
      { destruct (decide (kk = k)); [|by apply wp_ret].
        apply wp_bind. eapply wp_gets; [exact (rd_inner _ _ _ _ Ho _ _ _ _ _ _ (CI_cell _ _ _ _ _ _))|]. by apply wp_ret. }
      intros b t' [-> ->]. cbn [descend] in HQ1, HQ2, Hsplit.
      destruct (decide (p ≤ leading_zeros128 (N.lxor kk k))) as [Hd|Hd].
      + apply wp_bind. eapply wp_gets; [exact (rd_child _ _ _ _ Ho _ _ _ _ _ _ (CI_cell _ _ _ _ _ _) p k Hp)|]. cbn [fst].
        simpl in Hf. clear Hsplit. destruct (bit k p) eqn:E.
        * apply (IH (Fr true i kk p l :: ctx)); try done. lia.
        * apply (IH (Fr false i kk p r :: ctx)); try done. lia.
      + apply Hsplit; [|done|done]. simpl. lia.
  Qed.

  (** first insertion *)
  Lemma insert_empty_ok t k v (Q : option N → critbit → Prop) :
    cempty nn cap t → 0 < cap → 2 * cap ≤ nn →
    (∀ i j t', crep nn cap t' (CL i k j v) → Q (Some i) t') →
    wp (cb_insert k v) t Q.
  Proof.
    intros [Hr (fr & Ho & Hf & Hz) Hl] Hc Hn HQ. unfold cb_insert. apply wp_bind, wp_mget.
    rewrite decide_True by done. destruct t as [rt nd lv]. cbn [cb_root cb_nodes cb_leaves] in *.
    apply wp_bind. eapply add_leaf_ok; [exact Ho|done|exact Hl|rewrite lengthN_nil; lia|done|].
    intros i j x fr' nd' lv' Ho' Hf' Hl' Hx. apply wp_bind, wp_modify, wp_ret. apply HQ with (j := j).
    rewrite Hx in Ho' by done. constructor; simpl; [done| |done]. by exists fr'.
  Qed.
  Lemma cb_capacity_ok t U : crep nn cap t U → cb_capacity t = cap.
  Proof. intros [_ _ Hl]. by eapply CH_cap. Qed.
  Lemma insert_full t U k v : crep nn cap t U → lengthN (ents U) = cap → cb_insert k v t = Ret None t.
  Proof.
    intros HR Hc. unfold cb_insert, mbind, M_bind, mget. destruct (crep_nonempty _ _ _ _ HR) as (_ & _ & Hne).
    rewrite decide_False by done. rewrite decide_True; [done|].
    rewrite (cb_capacity_ok _ _ HR). destruct (crep_size _ _ _ _ HR) as [_ ->]. lia.
  Qed.
  Lemma insert_ok t U k v (Q : option N → critbit → Prop) :
    crep nn cap t U → wf U → k < W128 → lengthN (ents U) < cap → 2 * cap ≤ nn →
    (∀ ctx i j v0 t', U = plug ctx (CL i k j v0) → pos U k ctx (CL i k j v0) → crep nn cap t' (plug ctx (CL i k j v)) → Q (Some i) t') →
    (∀ ctx U' nl m j t', hit k U' = false → pos U k ctx U' → crep nn cap t' (plug ctx (split_tree U' nl m j k v)) → Q (Some nl) t') →
    wp (cb_insert k v) t Q.
  Proof.
    intros HR Hw Hk Hc Hn HQ1 HQ2. unfold cb_insert. apply wp_bind, wp_mget. destruct (crep_nonempty _ _ _ _ HR) as (_ & _ & Hne).
    rewrite decide_False by done. rewrite decide_False.
    2:{ rewrite (cb_capacity_ok _ _ HR). destruct (crep_size _ _ _ _ HR) as [_ ->]. lia. }
    rewrite (cr_root _ _ _ _ HR). pose proof (descend_pos _ _ Hw Hk) as HP.
    apply (insert_loop_ok _ t [] U); try done.
    - etrans; [apply cheight_csize|by apply (crep_fuel nn cap)].
    - unfold lengthN, lcells in *. by rewrite map_length.
    - intros i j v0 t' He HR'. pose proof HP as HP'. rewrite He in HP'. eapply HQ1; [|exact HP'|exact HR'].
      by destruct HP'.
    - intros nl m j t' Hh HR'. by eapply HQ2.
  Qed.

  (** the new tree is well formed and holds what the specification says *)
  Lemma split_wf U k ctx U' nl m j v :
    k < W128 → hit k U' = false → pos U k ctx U' → wf (plug ctx (split_tree U' nl m j k v)).
  Proof.
    intros Hk Hh HP. pose proof (pos_stop _ _ _ _ HP Hh) as Hs.
    destruct (split_bits U' k (pos_wf _ _ _ _ HP) Hk Hs) as [Hlt Hf].
    apply wf_plug. destruct HP as [_ Hw Hwc Ha Hka _]. unfold split_tree.
    set (s := leading_zeros128 (N.lxor (rkey U') k)) in *.
    assert (keys (CL nl k j v) = [k]) as Ek by done.
    destruct (bit k s) eqn:E; simpl negb in Hf.
    - split_and!; [|done|rewrite keys_CI, keys_reroot, Ek; by apply Forall_app; split; [|constructor]].
      simpl. rewrite keys_reroot, Ek, wf_reroot. split_and!; try done. constructor; [|done]. done.
    - split_and!; [|done|rewrite keys_CI, keys_reroot, Ek; by apply Forall_app; split; [constructor|]].
      simpl. rewrite keys_reroot, Ek, wf_reroot. split_and!; try done. constructor; [|done]. done.
  Qed.
  Lemma split_kvs U k ctx U' nl m j v :
    k < W128 → hit k U' = false → pos U k ctx U' →
    kvs (plug ctx (split_tree U' nl m j k v)) = om_insert N.compare k v (kvs U) ∧ om_find N.compare k (kvs U) = None.
  Proof.
    intros Hk Hh HP. destruct (pos_absent _ _ _ _ Hk HP Hh) as (A & B & HU & Hb & Ha & He).
    rewrite HU, om_insert_absent, om_find_absent by done. split; [|done]. rewrite kvs_plug. unfold split_tree. cbv zeta in He.
    set (s := leading_zeros128 (N.lxor (rkey U') k)) in *.
    destruct (bit k s); destruct He as [-> ->]; rewrite kvs_CI, kvs_reroot; change (kvs (CL nl k j v)) with [(k, v)];
      by rewrite <- !app_assoc.
  Qed.
  Lemma hit_kvs U k ctx i j v0 v :
    k < W128 → pos U k ctx (CL i k j v0) →
    kvs (plug ctx (CL i k j v)) = om_insert N.compare k v (kvs U) ∧ om_find N.compare k (kvs U) = Some (k, v0).
  Proof.
    intros Hk HP. pose proof (pos_below _ _ _ _ Hk HP) as Hb. rewrite (pos_kvs _ _ _ _ HP), kvs_plug.
    change (kvs (CL i k j v0) ++ (entsR ctx).*2.*2) with ((k, v0) :: (entsR ctx).*2.*2).
    rewrite om_insert_found, om_find_found by (done || apply N.compare_refl). done.
  Qed.
End mut.
