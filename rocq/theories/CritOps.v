(** * Critbit: the operations on ghost trees *)
From Verif Require Export SearchProof MapApi CritProof.

Section ops.
  Context `{Profile} {V : Type} {G : Ghost V} `{GA : !GAdd G} (nn cap : N).
  Notation critbit := (critbit V).
  Notation ctree := (ctree V).
  Notation OK := (AOK 4 nn).
  Notation LK := (CH 4 cap).
  Implicit Types t : critbit.
  Implicit Types U : ctree.
  Implicit Types cs : list (N * node cnode).
  Implicit Types ctx : list (frame V).

  (** freed nodes: only a stale parent register may be left *)
  Definition frok (fr : list (N * list N)) : Prop := Forall (λ f, ∃ p, f.2 = [0; p; 0]) fr.
  Record crep t U : Prop := {
    cr_root : cb_root t = croot U;
    cr_nodes : ∃ fr, OK (cb_nodes t) (cells U 0) fr ∧ frok fr;
    cr_leaves : LK (cb_leaves t) (lcells U) }.
  Record cempty t : Prop := {
    ce_root : cb_root t = 0;
    ce_nodes : ∃ fr, OK (cb_nodes t) [] fr ∧ frok fr ∧ match fr with [] => True | f :: _ => f.2 = [0; 0; 0] end;
    ce_leaves : LK (cb_leaves t) [] }.

  Lemma wp_onn {A} (m : M (alloc cnode) A) rt nd lv (Q : A → critbit → Prop) :
    wp m nd (λ a nd', Q a (Crit rt nd' lv)) → wp (cb_onn m) (Crit rt nd lv) Q.
  Proof. intros Hw. by apply (wp_zoom cb_nodes set_cnodes). Qed.
  Lemma wp_onl {A} (m : M (alloc V) A) rt nd lv (Q : A → critbit → Prop) :
    wp m lv (λ a lv', Q a (Crit rt nd lv')) → wp (cb_onl m) (Crit rt nd lv) Q.
  Proof. intros Hw. by apply (wp_zoom cb_leaves set_cleaves). Qed.

  (** *** Reading *)
  Section read.
    Context t cs fr (Ho : OK (cb_nodes t) cs fr).
    Context i l r p j c (Hin : (i, Node [l; r; p; j] c) ∈ cs).
    Lemma rd_node : cb_get_node t i = Val c.
    Proof using Ho Hin. unfold cb_get_node. by rewrite (AOK_get _ _ _ _ _ _ _ Ho Hin). Qed.
    Lemma rd_key : cb_get_key t i = Val (cn_key c).
    Proof using Ho Hin. unfold cb_get_key. by rewrite (AOK_get _ _ _ _ _ _ _ Ho Hin). Qed.
    Lemma rd_left : cb_get_left t i = Val l.
    Proof using Ho Hin. by apply (AOK_get_register _ _ _ _ _ _ _ _ _ Ho Hin). Qed.
    Lemma rd_right : cb_get_right t i = Val r.
    Proof using Ho Hin. by apply (AOK_get_register _ _ _ _ _ _ _ _ _ Ho Hin). Qed.
    Lemma rd_parent : cb_get_parent t i = Val p.
    Proof using Ho Hin. by apply (AOK_get_register _ _ _ _ _ _ _ _ _ Ho Hin). Qed.
    Lemma rd_value : na_get_register (cb_nodes t) i FValue = Val j.
    Proof using Ho Hin. by apply (AOK_get_register _ _ _ _ _ _ _ _ _ Ho Hin). Qed.
    Lemma rd_leaf_index : cb_get_leaf_index t i = Val j.
    Proof using Ho Hin. exact rd_value. Qed.
    Lemma rd_inner : cb_is_inner_node t i = Val (bool_decide (j = SENTINEL)).
    Proof using Ho Hin. unfold cb_is_inner_node. by rewrite rd_value. Qed.
    Lemma rd_child q k : q < 128 → cb_get_child t q i k = Val (if bit k q then r else l, bit k q).
    Proof using Ho Hin.
      intros Hq. unfold cb_get_child. rewrite (crit_mask_ok _ Hq). cbn -[N.land N.pow N.sub].
      pose proof (land_mask_bit k q) as Hm.
      destruct (decide (N.land k (2 ^ (127 - q)) ≠ 0)) as [Hd|Hd].
      - rewrite bool_decide_true in Hm by done. rewrite <- Hm. by rewrite rd_right.
      - rewrite bool_decide_false in Hm by done. rewrite <- Hm. by rewrite rd_left.
    Qed.
  End read.

  (** The root cell of a tree, and the others *)
  Definition hnode U (par : N) : node cnode :=
    match U with
    | CL _ k j _ => Node [0; 0; par; j] (CNode k 128)
    | CI _ k p l r => Node [croot l; croot r; par; 0] (CNode k p)
    end.
  Definition tcells U : list (N * node cnode) :=
    match U with CL _ _ _ _ => [] | CI i _ _ l r => cells l i ++ cells r i end.
  Lemma cells_eq U par : cells U par = (croot U, hnode U par) :: tcells U.
  Proof. by destruct U. Qed.
  Definition reroot (m : N) U : ctree := match U with CL _ k j v => CL m k j v | CI _ k p l r => CI m k p l r end.
  Lemma croot_reroot m U : croot (reroot m U) = m.
  Proof. by destruct U. Qed.
  Lemma lcells_reroot m U : lcells (reroot m U) = lcells U.
  Proof. by destruct U. Qed.
  Lemma kvs_reroot m U : kvs (reroot m U) = kvs U.
  Proof. by destruct U. Qed.
  Lemma keys_reroot m U : keys (reroot m U) = keys U.
  Proof. unfold keys. by rewrite kvs_reroot. Qed.
  Lemma wf_reroot m U : wf (reroot m U) ↔ wf U.
  Proof. by destruct U. Qed.

  (** *** Search *)
  Fixpoint descend (k : N) ctx U : list (frame V) * ctree :=
    match U with
    | CL _ _ _ _ => (ctx, U)
    | CI i kk p l r =>
        if decide (p ≤ leading_zeros128 (N.lxor kk k)) then
          if bit k p then descend k (Fr true i kk p l :: ctx) r else descend k (Fr false i kk p r :: ctx) l
        else (ctx, U)
    end.
  Lemma descend_plug k ctx U : plug (descend k ctx U).1 (descend k ctx U).2 = plug ctx U.
  Proof.
    revert ctx. induction U as [|i kk p l IHl r IHr]; intros ctx; simpl; [done|].
    case_decide; [|done]. destruct (bit k p); [rewrite IHr|rewrite IHl]; done.
  Qed.
  Lemma descend_adm k ctx U : wf U → k < W128 → adm ctx k → adm (descend k ctx U).1 k.
  Proof.
    revert ctx. induction U as [|i kk p l IHl r IHr]; intros ctx; simpl; [done|].
    intros (Hp & Hkk & _ & _ & Hwl & Hwr) Hk Ha. case_decide as Hd; [|done].
    apply lz_ge in Hd; [|done|done|lia].
    destruct (bit k p) eqn:E; [apply IHr|apply IHl]; try done; constructor; done.
  Qed.
  (** where the search ends: at a leaf with the key, or where the key leaves the prefix *)
  Definition hit (k : N) U : bool := match U with CL _ k' _ _ => bool_decide (k' = k) | CI _ _ _ _ _ => false end.
  Lemma descend_stop k ctx U :
    wf U → k < W128 → hit k (descend k ctx U).2 = false →
    leading_zeros128 (N.lxor (rkey (descend k ctx U).2) k) < rplen (descend k ctx U).2.
  Proof.
    revert ctx. induction U as [i kk j v|i kk p l IHl r IHr]; intros ctx; simpl.
    - intros Hw Hk Hne%bool_decide_eq_false. by apply lz_lt.
    - intros (Hp & Hkk & _ & _ & Hwl & Hwr) Hk. case_decide as Hd; [|simpl; lia].
      destruct (bit k p); [by apply IHr|by apply IHl].
  Qed.

  (** the code's walk *)
  Lemma cells_sub ctx U par c : c ∈ cells U par → par = cpar ctx → c ∈ cells (plug ctx U) 0.
  Proof. intros Hc ->. rewrite cells_plug. set_solver. Qed.
  Lemma CL_cell ctx i k j v : (i, Node [0; 0; cpar ctx; j] (CNode k 128)) ∈ cells (plug ctx (CL i k j v)) 0.
  Proof. eapply cells_sub; [|done]. set_solver. Qed.
  Lemma CI_cell ctx i k p l r : (i, Node [croot l; croot r; cpar ctx; 0] (CNode k p)) ∈ cells (plug ctx (CI i k p l r)) 0.
  Proof. eapply cells_sub; [|done]. set_solver. Qed.
  Lemma lcell_in ctx i k j v : (j, Node [0; 0; 0; 0] v) ∈ lcells (plug ctx (CL i k j v)).
  Proof.
    unfold lcells. rewrite ents_plug. simpl. apply elem_of_list_fmap. exists (i, (j, (k, v))). split; [done|]. set_solver.
  Qed.

  Lemma walk_ok t ctx U fr k fuel :
    OK (cb_nodes t) (cells (plug ctx U) 0) fr → LK (cb_leaves t) (lcells (plug ctx U)) → wf U → k < W128 → (cheight U ≤ fuel)%nat →
    cb_walk fuel t k (croot U) = Val (if hit k (descend k ctx U).2 then croot (descend k ctx U).2 else SENTINEL).
  Proof.
    revert ctx U. induction fuel as [|fuel IH]; intros ctx U Ho Hl Hw Hk Hf; [destruct U; simpl in Hf; lia|].
    destruct U as [i kk j v|i kk p l r].
    - cbn [cb_walk croot descend snd hit]. rewrite (rd_node _ _ _ Ho _ _ _ _ _ _ (CL_cell _ _ _ _ _)). cbn [mbind res_bind].
      rewrite (rd_inner _ _ _ Ho _ _ _ _ _ _ (CL_cell _ _ _ _ _)). cbn [mbind res_bind].
      rewrite bool_decide_false by (eapply CH_nz; [exact Hl|apply lcell_in]). cbn [negb cn_key]. f_equal.
      destruct (decide (kk = k)); [by rewrite bool_decide_true|by rewrite bool_decide_false].
    - destruct Hw as (Hp & Hkk & _ & _ & Hwl & Hwr).
      cbn [cb_walk croot descend]. rewrite (rd_node _ _ _ Ho _ _ _ _ _ _ (CI_cell _ _ _ _ _ _)). cbn [mbind res_bind].
      rewrite (rd_inner _ _ _ Ho _ _ _ _ _ _ (CI_cell _ _ _ _ _ _)). cbn [mbind res_bind].
      rewrite bool_decide_true by done. cbn [negb cn_key cn_prefix_len].
      destruct (decide (p ≤ leading_zeros128 (N.lxor kk k))) as [Hd|Hd]; [|done].
      rewrite (rd_child _ _ _ Ho _ _ _ _ _ _ (CI_cell _ _ _ _ _ _) p k Hp). cbn [mbind res_bind fst]. simpl in Hf.
      destruct (bit k p) eqn:E.
      + apply (IH (Fr true i kk p l :: ctx)); try done. lia.
      + apply (IH (Fr false i kk p r :: ctx)); try done. lia.
  Qed.

  Lemma hit_CL k U : hit k U = true → ∃ i j v, U = CL i k j v.
  Proof. destruct U as [i k' j v|]; simpl; [|done]. intros ->%bool_decide_eq_true. eauto. Qed.

  Lemma crep_fuel t U : crep t U → (csize U ≤ cb_fuel t)%nat.
  Proof.
    intros [_ (fr & Ho & _) _]. pose proof (AOK_len_le _ _ _ _ _ Ho) as Hl. pose proof (ok_cap _ _ _ _ _ Ho) as Hc.
    unfold lengthN in Hl. rewrite cells_length in Hl. unfold cb_fuel. unfold MAX_SIZE, lengthN in Hc. lia.
  Qed.
  Lemma crep_size t U : crep t U → size (cb_nodes t) + 1 = 2 * lengthN (ents U) ∧ cb_len t = lengthN (ents U).
  Proof.
    intros [_ (fr & Ho & _) Hl]. rewrite (ok_size _ _ _ _ _ Ho). unfold cb_len. rewrite (CH_size _ _ _ _ Hl).
    unfold lengthN, lcells. rewrite map_length, cells_length. pose proof (csize_ents U). lia.
  Qed.
  Lemma crep_nonempty t U : crep t U → cb_is_empty t = false ∧ cb_len t ≠ 0 ∧ cb_root t ≠ 0.
  Proof.
    intros HR. destruct (crep_size _ _ HR) as [_ Hl]. unfold cb_is_empty.
    assert (cb_len t ≠ 0) as Hne. { rewrite Hl. unfold lengthN. pose proof (ents_ne U). destruct (ents U); [done|]. simpl length. lia. }
    split_and!; [by apply bool_decide_eq_false|done|]. destruct HR as [-> (fr & Ho & _) _].
    eapply AOK_nz; [exact Ho|]. rewrite cells_eq. mem.
  Qed.

  (** The position of key [k] in the tree, and what the specification's operations do there *)
  Record pos (U : ctree) (k : N) ctx U' : Prop := {
    pos_eq : plug ctx U' = U;
    pos_wf : wf U';
    pos_wfc : wfc ctx;
    pos_adm : Forall (adm ctx) (keys U');
    pos_k : adm ctx k;
    pos_stop : hit k U' = false → leading_zeros128 (N.lxor (rkey U') k) < rplen U' }.
  Lemma descend_pos U k : wf U → k < W128 → pos U k (descend k [] U).1 (descend k [] U).2.
  Proof.
    intros Hw Hk. pose proof (descend_plug k [] U) as Hpl. simpl in Hpl.
    assert (wf (plug (descend k [] U).1 (descend k [] U).2)) as Hw' by (by rewrite Hpl).
    apply wf_plug in Hw' as (H1 & H2 & H3). constructor; try done.
    - apply descend_adm; [done|done|constructor].
    - by apply descend_stop.
  Qed.
  Section pos.
    Context U k ctx U' (Hk : k < W128) (HP : pos U k ctx U').
    Lemma pos_kvs : kvs U = (entsL ctx).*2.*2 ++ kvs U' ++ (entsR ctx).*2.*2.
    Proof using HP. destruct HP. subst U. apply kvs_plug. Qed.
    Lemma pos_below : below N.compare k (entsL ctx).*2.*2.
    Proof using Hk HP. destruct HP. by apply adm_below. Qed.
    Lemma pos_above : above N.compare k (entsR ctx).*2.*2.
    Proof using Hk HP. destruct HP. by apply adm_above. Qed.
    (** absent *)
    Lemma pos_absent : hit k U' = false → ∃ A B, kvs U = A ++ B ∧ below N.compare k A ∧ above N.compare k B ∧
      let s := leading_zeros128 (N.lxor (rkey U') k) in
      if bit k s then A = (entsL ctx).*2.*2 ++ kvs U' ∧ B = (entsR ctx).*2.*2
      else A = (entsL ctx).*2.*2 ∧ B = kvs U' ++ (entsR ctx).*2.*2.
    Proof using Hk HP.
      intros Hh. pose proof (pos_stop _ _ _ _ HP Hh) as Hs. destruct (split_bits U' k (pos_wf _ _ _ _ HP) Hk Hs) as [Hlt Hf].
      apply split_order in Hf; [|by destruct HP|done|done]. pose proof pos_below. pose proof pos_above.
      rewrite pos_kvs. cbv zeta. destruct (bit k _).
      - exists ((entsL ctx).*2.*2 ++ kvs U'), (entsR ctx).*2.*2. rewrite app_assoc. split_and!; try done. by apply below_app.
      - exists (entsL ctx).*2.*2, (kvs U' ++ (entsR ctx).*2.*2). split_and!; try done. by apply above_app.
    Qed.
  End pos.

  (** *** Lookups *)
  Lemma cb_addr_ok t U k :
    crep t U → wf U → k < W128 →
    cb_get_addr t k = Val (if hit k (descend k [] U).2 then croot (descend k [] U).2 else SENTINEL).
  Proof.
    intros HR Hw Hk. unfold cb_get_addr. rewrite (cr_root _ _ HR).
    pose proof (crep_fuel _ _ HR). pose proof (cheight_csize U). destruct (cr_nodes _ _ HR) as (fr & Ho & _).
    apply (walk_ok t [] U fr); try done; [by destruct HR|lia].
  Qed.
  Lemma crep_w t U : crep t U → MAX_SIZE (cb_nodes t) < W32.
  Proof. intros [_ (fr & Ho & _) _]. rewrite (ok_cap _ _ _ _ _ Ho). pose proof (ok_w _ _ _ _ _ Ho). lia. Qed.
  Lemma cb_get_ok t U k :
    crep t U → wf U → k < W128 → cb_get t k = Val (om_get N.compare k (kvs U)).
  Proof.
    intros HR Hw Hk. rewrite cb_get_s_ok by by eapply crep_w. unfold cb_get_s. destruct (crep_nonempty _ _ HR) as (-> & _ & _).
    pose proof (cb_addr_ok _ _ _ HR Hw Hk) as Ha. unfold cb_get_addr in Ha. unfold mbind, res_bind. rewrite Ha.
    pose proof (descend_pos _ _ Hw Hk) as HP. destruct (descend k [] U) as [ctx U']. simpl in *.
    destruct (hit k U') eqn:Eh.
    - apply hit_CL in Eh as (i & j & v & ->). simpl. pose proof (pos_kvs _ _ _ _ HP) as Hkv.
      pose proof (pos_eq _ _ _ _ HP) as He. pose proof (pos_below _ _ _ _ Hk HP).
      destruct HR as [_ (fr & Ho & _) Hl]. rewrite <- He in Ho, Hl.
      rewrite decide_False by (eapply AOK_nz; [exact Ho|apply CL_cell]).
      rewrite (rd_leaf_index _ _ _ Ho _ _ _ _ _ _ (CL_cell _ _ _ _ _)). unfold cb_get_leaf.
      rewrite (CH_get _ _ _ _ _ _ Hl (lcell_in _ _ _ _ _)). simpl. rewrite Hkv. unfold om_get.
      change (kvs (CL i k j v) ++ (entsR ctx).*2.*2) with ((k, v) :: (entsR ctx).*2.*2).
      rewrite om_find_found; [done|done|]. apply N.compare_refl.
    - rewrite decide_True by done. destruct (pos_absent _ _ _ _ Hk HP Eh) as (A & B & -> & Hb & Hab & _).
      unfold om_get. by rewrite om_find_absent.
  Qed.
  Lemma cb_contains_ok t k o : cb_get t k = Val o → cb_contains t k = Val (match o with Some _ => true | None => false end).
  Proof. intros Hg. unfold cb_contains. by rewrite Hg. Qed.

  (** *** Updating a value in place *)
  Lemma lcells_upd ctx i k j v v' lv :
    LK lv (lcells (plug ctx (CL i k j v))) →
    ∃ ls, LK lv ((j, Node [0; 0; 0; 0] v) :: ls) ∧
      ∀ lv', LK lv' ((j, Node [0; 0; 0; 0] v') :: ls) → LK lv' (lcells (plug ctx (CL i k j v'))).
  Proof.
    unfold lcells. rewrite !ents_plug, !map_app. simpl. intros Hl.
    exists (map lcell (entsL ctx) ++ map lcell (entsR ctx)). split.
    - eapply CH_perm; [exact Hl|]. symmetry. apply Permutation_middle.
    - intros lv' Hl'. eapply CH_perm; [exact Hl'|]. apply Permutation_middle.
  Qed.
  Lemma replace_leaf_ok t ctx i k j v v' (Q : () → critbit → Prop) :
    crep t (plug ctx (CL i k j v)) →
    (∀ t', crep t' (plug ctx (CL i k j v')) → cb_nodes t' = cb_nodes t → cb_root t' = cb_root t → Q () t') →
    wp (cb_replace_leaf j v') t Q.
  Proof.
    intros [Hr (fr & Ho & Hf) Hl] HQ. destruct t as [rt nd lv]. simpl in *. unfold cb_replace_leaf. apply wp_onl.
    destruct (lcells_upd ctx i k j v v' lv Hl) as (cs & Hl1 & Hl2).
    eapply CH_get_mut; [exact _|exact Hl1|done|]. intros lv' Hl'. apply HQ; [|done|done]. constructor; simpl.
    - rewrite Hr. by apply croot_plug.
    - exists fr. split; [|done]. eapply AOK_perm; [exact Ho|]. by rewrite !cells_plug.
    - by apply Hl2.
  Qed.
  Lemma wf_upd ctx i k j v v' : wf (plug ctx (CL i k j v)) → wf (plug ctx (CL i k j v')).
  Proof. by rewrite !wf_plug. Qed.
  Lemma cb_get_mut_ok t U k f (Q : option V → critbit → Prop) :
    crep t U → wf U → k < W128 →
    (om_get N.compare k (kvs U) = None → Q None t) →
    (∀ ctx i j v t', U = plug ctx (CL i k j v) → om_get N.compare k (kvs U) = Some v →
       crep t' (plug ctx (CL i k j (f v))) → kvs (plug ctx (CL i k j (f v))) = om_alter N.compare k f (kvs U) →
       cb_nodes t' = cb_nodes t → cb_root t' = cb_root t → Q (Some v) t') →
    wp (cb_get_mut k f) t Q.
  Proof.
    intros HR Hw Hk HQ0 HQ1. eapply wp_ext; [apply cb_get_mut_s_ok; by eapply crep_w|]. unfold cb_get_mut_s. apply wp_bind, wp_mget. destruct (crep_nonempty _ _ HR) as (-> & _ & _).
    apply wp_bind. eapply wp_gets; [exact (cb_addr_ok _ _ _ HR Hw Hk)|].
    pose proof (descend_pos _ _ Hw Hk) as HP. destruct (descend k [] U) as [ctx U']. cbn [fst snd] in *.
    pose proof (pos_kvs _ _ _ _ HP) as Hkv.
    destruct (hit k U') eqn:Eh.
    - apply hit_CL in Eh as (i & j & v & ->). simpl.
      pose proof (pos_eq _ _ _ _ HP) as He. pose proof (pos_below _ _ _ _ Hk HP) as Hb.
      pose proof HR as [_ (fr & Ho & _) Hl]. rewrite <- He in Ho, Hl.
      rewrite decide_False by (eapply AOK_nz; [exact Ho|apply CL_cell]).
      apply wp_bind. eapply wp_gets; [exact (rd_leaf_index _ _ _ Ho _ _ _ _ _ _ (CL_cell _ _ _ _ _))|].
      apply wp_bind. eapply wp_gets. { unfold cb_get_leaf. by rewrite (CH_get _ _ _ _ _ _ Hl (lcell_in _ _ _ _ _)). }
      apply wp_bind. rewrite <- He in HR. eapply replace_leaf_ok; [exact HR|]. intros t' HR' Hn Hr. apply wp_ret. simpl.
      change (kvs (CL i k j v) ++ (entsR ctx).*2.*2) with ((k, v) :: (entsR ctx).*2.*2) in Hkv.
      apply (HQ1 ctx i j v); try done.
      + rewrite Hkv. unfold om_get. rewrite om_find_found; [done|done|]. apply N.compare_refl.
      + rewrite Hkv, om_alter_found by (done || apply N.compare_refl). by rewrite kvs_plug.
    - rewrite decide_True by done. apply wp_ret. apply HQ0.
      destruct (pos_absent _ _ _ _ Hk HP Eh) as (A & B & -> & Hb & Hab & _). unfold om_get. by rewrite om_find_absent.
  Qed.
End ops.
