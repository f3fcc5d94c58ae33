(** * Facts about all reachable Critbit trees *)
From Verif Require Import MapFacts.
From Verif Require Export CritIter.

Section main.
  Context `{Profile} {V : Type} {G : Ghost V} `{GA : !GAdd G} `{GR : !GRem G} (nn cap : N) (Hc : 0 < cap) (Hnn : 2 * cap ≤ nn).
  Notation critbit := (critbit V).
  Notation ctree := (ctree V).
  Notation ent := (N * (N * (N * V)))%type.
  Notation crep := (crep nn cap).
  Notation cempty := (cempty nn cap).
  Notation cmp := N.compare.
  Implicit Types t : critbit.
  Implicit Types U : ctree.
  Implicit Types E : list ent.

  Definition cbok t E : Prop := (cempty t ∧ E = []) ∨ ∃ U, crep t U ∧ wf U ∧ E = ents U.
  (** what stays of the entries *)
  Definition ckeeps (o : om_op N V) E E' : Prop :=
    (∀ i j k v, (i, (j, (k, v))) ∈ E → o ≠ MRemove k → ∃ i' v', (i', (j, (k, v'))) ∈ E') ∧
    (E'.*2.*2.*1 = E.*2.*2.*1 → map sk E' = map sk E).
  Lemma ckeeps_refl o E : ckeeps o E E.
  Proof. clear. split; [|done]. intros i j k v Hin _. eauto. Qed.
  Lemma ckeeps_sk o E E' : map sk E' = map sk E → ckeeps o E E'.
  Proof.
    clear. intros He. split; [|done]. intros i j k v Hin _. apply (elem_of_list_fmap_1 sk) in Hin. change (sk <$> E) with (map sk E) in Hin.
    rewrite <- He in Hin. apply elem_of_list_fmap in Hin as ([i' [j' [k' v']]] & Heq & Hin). unfold sk in Heq. simpl in Heq.
    injection Heq as -> -> ->. eauto.
  Qed.
  Lemma sk_upd ctx i k j v v' : map sk (ents (plug ctx (CL i k j v))) = map sk (ents (plug (V:=V) ctx (CL i k j v'))).
  Proof. clear. rewrite !ents_plug, !map_app. done. Qed.

  (** *** The empty tree *)
  Lemma empty_size t : cempty t → cb_len t = 0 ∧ cb_is_empty t = true ∧ cb_capacity t = cap.
  Proof.
    clear. intros [_ _ Hl]. pose proof (CH_size _ _ _ _ Hl) as Hs. pose proof (CH_cap _ _ _ _ Hl) as Hc.
    unfold cb_is_empty. unfold cb_len. rewrite Hs. done.
  Qed.
  Lemma empty_addr t k : cempty t → nn + 1 < W32 → cb_get_addr t k = Err Panic.
  Proof.
    clear Hc Hnn. intros [Hr (fr & Ho & _) _] Hw. unfold cb_get_addr. rewrite Hr. unfold cb_fuel. cbn [cb_walk]. unfold cb_get_node.
    pose proof (ok_cap _ _ _ _ _ Ho) as Hcap. unfold na_get.
    assert (u32_sub 0 1 = if overflow_checks then Err Panic else Val 4294967295) as -> by done.
    destruct overflow_checks; [done|]. cbn [mbind res_bind].
    assert (lookupN (nodes (cb_nodes t)) 4294967295 = None) as ->; [|done].
    unfold lookupN. destruct (decide _) as [Hd|]; [|done]. unfold MAX_SIZE, lengthN in Hcap. unfold W32 in *. lia.
  Qed.
  Lemma empty_iter t sc : cempty t → cb_iterate t sc = Val (de_spec sc []).
  Proof.
    clear. intros [Hr _ _]. unfold cb_iterate, cb_iter. rewrite Hr, decide_True by done.
    apply (drive_ok _ _ (λ it l, it = CIter [] None [] None false ∧ l = [])); try done.
    - intros it [-> _]. by eexists.
    - intros it x l [_ ?]. done.
    - intros it [-> _]. by eexists.
    - intros it x l [_ He]. by apply app_nil in He as [_ ?].
  Qed.
  Lemma de_mut_nil {A} (u : (V → V) → A → A) sc : (de_mut_spec u sc []).2 = [].
  Proof. clear. induction sc as [|[[] f] sc IH]; simpl; [done|..]; by destruct (de_mut_spec u sc []). Qed.
  Lemma empty_iter_mut t sc : cempty t → cb_iterate_mut sc t = Ret (de_mut_spec upd_lf sc []).1 t.
  Proof.
    clear. intros [Hr _ _]. unfold cb_iterate_mut, cb_iter. rewrite Hr, decide_True by done.
    pose proof (drive_mut_ok cb_iter_mut_next cb_iter_mut_next_back upd_lf
      (λ s P l B, s = (t, CIter [] None [] None false) ∧ l = [])) as Hd.
    specialize (Hd ltac:(by intros s P B f [-> _])). specialize (Hd ltac:(by intros s P x l B f [-> ?])).
    specialize (Hd ltac:(by intros s P B f [-> _])). specialize (Hd ltac:(intros s P x l B f [-> He]; by apply app_nil in He as [_ ?])).
    specialize (Hd sc (t, CIter [] None [] None false) [] [] [] ltac:(done)).
    apply wp_elim in Hd as (o & [t' it'] & -> & -> & P & l & B & ([= -> ->] & _) & _). done.
  Qed.

  (** *** One call *)
  Lemma addr_mem t U i j k v : crep t U → wf U → (i, (j, (k, v))) ∈ ents U → cb_get_addr t k = Val i.
  Proof.
    clear Hc Hnn. intros HR Hw Hin.
    assert (k ∈ keys U) as Hk. { apply (keys_kvs U (k, v)). unfold kvs. by do 2 apply (elem_of_list_fmap_1 snd) in Hin. }
    pose proof (keys_wf _ Hw) as Hkw. rewrite Forall_forall in Hkw. specialize (Hkw _ Hk).
    rewrite (cb_addr_ok _ _ _ _ _ HR Hw Hkw). pose proof (descend_pos _ _ Hw Hkw) as HP.
    destruct (descend k [] U) as [ctx U']. cbn [fst snd] in *.
    assert ((k, v) ∈ kvs U) as Hkv. { unfold kvs. by do 2 apply (elem_of_list_fmap_1 snd) in Hin. }
    destruct (hit k U') eqn:Eh.
    - apply hit_CL in Eh as (i' & j' & v' & ->). simpl. f_equal.
      pose proof (pos_eq _ _ _ _ HP) as He. pose proof (pos_below _ _ _ _ Hkw HP) as Hb. pose proof (pos_above _ _ _ _ Hkw HP) as Ha.
      rewrite <- He, ents_plug in Hin. simpl in Hin. apply elem_of_app in Hin as [Hin|[Hin|Hin]%elem_of_cons].
      + do 2 apply (elem_of_list_fmap_1 snd) in Hin. simpl in Hin. unfold below in Hb. rewrite Forall_forall in Hb.
        apply Hb in Hin. simpl in Hin. by rewrite N.compare_refl in Hin.
      + by simplify_eq.
      + do 2 apply (elem_of_list_fmap_1 snd) in Hin. simpl in Hin. unfold above in Ha. rewrite Forall_forall in Ha.
        apply Ha in Hin. simpl in Hin. by rewrite N.compare_refl in Hin.
    - exfalso. destruct (pos_absent _ _ _ _ Hkw HP Eh) as (A & B & HU & Hb & Hab & _). rewrite HU in Hkv.
      unfold below, above in *. rewrite Forall_forall in Hb, Hab.
      apply elem_of_app in Hkv as [Hkv|Hkv]; [apply Hb in Hkv|apply Hab in Hkv]; simpl in Hkv; by rewrite N.compare_refl in Hkv.
  Qed.
  Lemma addr_spec t U k :
    crep t U → wf U → k < W128 →
    match om_find cmp k (kvs U) with
    | Some kv => ∃ i j, (i, (j, kv)) ∈ ents U ∧ kv.1 = k ∧ cb_get_addr t k = Val i
    | None => cb_get_addr t k = Val SENTINEL
    end.
  Proof.
    clear Hc Hnn. intros HR Hw Hk. rewrite (cb_addr_ok _ _ _ _ _ HR Hw Hk). pose proof (descend_pos _ _ Hw Hk) as HP.
    destruct (descend k [] U) as [ctx U']. cbn [fst snd] in *.
    destruct (hit k U') eqn:Eh.
    - apply hit_CL in Eh as (i' & j' & v' & ->). pose proof (pos_below _ _ _ _ Hk HP) as Hb.
      rewrite (pos_kvs _ _ _ _ HP). change (kvs (CL i' k j' v') ++ ?r) with ((k, v') :: r).
      rewrite om_find_found by (done || apply N.compare_refl). exists i', j'. split_and!; [|done|done].
      rewrite <- (pos_eq _ _ _ _ HP), ents_plug. simpl. rewrite elem_of_app, elem_of_cons. auto.
    - destruct (pos_absent _ _ _ _ Hk HP Eh) as (A & B & HU & Hb & Hab & _). rewrite HU. by rewrite om_find_absent.
  Qed.

  Lemma ents_split ctx U nl m j k v :
    (ents (plug ctx (split_tree U nl m j k v))).*2 ≡ₚ (j, (k, v)) :: (ents (plug ctx U)).*2.
  Proof.
    clear. rewrite !ents_plug, !fmap_app. assert ((ents (reroot m U)).*2 = (ents U).*2) as Hr by (by destruct U).
    generalize (entsL ctx).*2 (entsR ctx).*2. intros A B.
    unfold split_tree. case_match; cbn [ents]; rewrite fmap_app, Hr; generalize (ents U).*2; intros C; simpl; solve_Permutation.
  Qed.
  Lemma ents_rem ctx (b : bool) pi kk p W i k j (v : V) :
    (ents (plug (Fr b pi kk p W :: ctx) (CL i k j v))).*2 ≡ₚ (j, (k, v)) :: (ents (plug ctx (reroot pi W))).*2.
  Proof.
    clear. rewrite (ents_plug (Fr b pi kk p W :: ctx)), (ents_plug ctx), !fmap_app.
    assert ((ents (reroot pi W)).*2 = (ents W).*2) as Hr by (by destruct W). rewrite Hr.
    cbn [entsL entsR ents]. destruct b; rewrite !fmap_app; cbn [fmap list_fmap snd]; generalize (entsL ctx).*2 (entsR ctx).*2 (ents W).*2; intros; solve_Permutation.
  Qed.
  Lemma mem_snd E i x : (i, x) ∈ E → x ∈ E.*2. Proof. clear. apply (elem_of_list_fmap_1 snd). Qed.
  Lemma snd_mem E x : x ∈ E.*2 → ∃ i, (i, x) ∈ E.
  Proof. clear. intros ([i y] & -> & Hin)%elem_of_list_fmap. eauto. Qed.
  Lemma keeps_len o E E' : length E' ≠ length E →
    (∀ j k v, (j, (k, v)) ∈ E.*2 → o ≠ MRemove k → (j, (k, v)) ∈ E'.*2) → ckeeps o E E'.
  Proof.
    clear. intros Hl Hk. split.
    - intros i j k v Hin Hne. apply mem_snd in Hin. apply Hk in Hin; [|done]. apply snd_mem in Hin as [i' Hin]. eauto.
    - intros He. exfalso. apply Hl. apply (f_equal length) in He. by rewrite !fmap_length in He.
  Qed.

  Lemma insert_facts t E k v :
    cbok t E → k < W128 →
    if decide (lengthN E < cap) then
      wp (cb_insert k v) t (λ o t', ∃ i E', o = Some i ∧ cbok t' E' ∧ E'.*2.*2 = om_insert cmp k v E.*2.*2 ∧
        ckeeps (MInsert k v) E E' ∧ (∃ j, (i, (j, (k, v))) ∈ E') ∧
        (om_find cmp k E.*2.*2 ≠ None → map sk E' = map sk E))
    else cb_insert k v t = Ret None t.
  Proof using GA Hc Hnn.
    intros Hok Hk. destruct (decide (lengthN E < cap)) as [Hl|Hl].
    - destruct Hok as [[Ht ->]|(U & HR & Hw & ->)].
      + eapply insert_empty_ok; [done|done|done|]. intros i j t' HR'. exists i, [(i, (j, (k, v)))]. split_and!; try done.
        * right. exists (CL i k j v). by split_and!.
        * split; [|done]. intros ???? Hin. by apply elem_of_nil in Hin.
        * exists j. by apply elem_of_list_singleton.
      + eapply insert_ok; [done|done|done|done|done|..].
        * intros ctx i j v0 t' -> HP HR'. exists i, (ents (plug ctx (CL i k j v))).
          destruct (hit_kvs _ _ _ _ _ _ v Hk HP) as [Hkv _].
          split_and!; [done| |exact Hkv|apply ckeeps_sk, sk_upd| |intros _; apply sk_upd].
          { right. eexists. split_and!; [done|by eapply wf_upd|done]. }
          { exists j. rewrite ents_plug. simpl. rewrite elem_of_app, elem_of_cons. auto. }
        * intros ctx U' nl m j t' Hh HP HR'. exists nl, (ents (plug ctx (split_tree U' nl m j k v))).
          destruct (split_kvs _ _ _ _ nl m j v Hk Hh HP) as [Hkv Hf]. pose proof (ents_split ctx U' nl m j k v) as Hp.
          rewrite (pos_eq _ _ _ _ HP) in Hp.
          split_and!; [done| |exact Hkv| | |].
          { right. eexists. split_and!; [done|by eapply split_wf|done]. }
          { apply keeps_len.
            - apply Permutation_length in Hp. simpl in Hp. rewrite !fmap_length in Hp. lia.
            - intros j' k' v' Hin _. rewrite Hp. by apply elem_of_list_further. }
          { assert (nl = (nl, (j, (k, v))).1) as Hnl by done.
            exists j. rewrite ents_plug. rewrite elem_of_app. right. rewrite elem_of_app. left. unfold split_tree.
            case_match; simpl; rewrite ?elem_of_app, elem_of_cons; auto. }
          { unfold kvs in Hf. rewrite Hf. done. }
    - destruct Hok as [[Ht ->]|(U & HR & Hw & ->)]; [unfold lengthN in Hl; simpl in Hl; lia|].
      eapply insert_full; [exact HR|]. pose proof HR as [_ _ HL]. apply CH_len_le in HL. unfold lcells, lengthN in *.
      rewrite map_length in HL. lia.
  Qed.
  Lemma remove_facts t E k :
    cbok t E → k < W128 →
    wp (cb_remove k) t (λ o t', ∃ E', cbok t' E' ∧ o = om_get cmp k E.*2.*2 ∧ E'.*2.*2 = om_remove cmp k E.*2.*2 ∧
      ckeeps (MRemove k) E E' ∧ (o = None → t' = t)).
  Proof using Type GR.
    clear Hc Hnn. intros [[Ht ->]|(U & HR & Hw & ->)] Hk.
    - unfold cb_remove. apply wp_bind, wp_mget. cbv zeta. destruct (empty_size _ Ht) as (-> & _). rewrite decide_True by done. apply wp_ret.
      exists []. split_and!; try done; [by left|apply ckeeps_refl].
    - change (ents U).*2.*2 with (kvs U). eapply remove_ok; [done|done|done|..].
      + intros Hg Hrm. exists (ents U). split_and!; try done; [right; eauto|apply ckeeps_refl].
      + intros i j v t' -> Ht'. exists []. change (kvs (CL i k j v)) with [(k, v)]. unfold om_get. simpl.
        rewrite N.compare_refl. split_and!; try done; [by left|]. apply keeps_len; [done|].
        intros j' k' v' Hin Hne. simpl in Hin. apply elem_of_list_singleton in Hin. simplify_eq.
      + intros ctx b pi kk p W i j v t' -> HR'. destruct (reroot_kvs _ _ _ _ _ _ _ _ _ _ Hw) as [H1 H2].
        exists (ents (plug ctx (reroot pi W))). split_and!; try done.
        { right. eexists. split_and!; [done|by eapply reroot_wf|done]. }
        pose proof (ents_rem ctx b pi kk p W i k j v) as Hp. apply keeps_len.
        * apply Permutation_length in Hp. rewrite !fmap_length in Hp. simpl in Hp. rewrite fmap_length in Hp. simpl. lia.
        * intros j' k' v' Hin Hne. rewrite Hp in Hin. apply elem_of_cons in Hin as [Hin|Hin]; [|done]. by simplify_eq.
  Qed.
  Lemma get_facts t E k : cbok t E → k < W128 → cb_get t k = Val (om_get cmp k E.*2.*2).
  Proof.
    clear Hc Hnn. intros [[Ht ->]|(U & HR & Hw & ->)] Hk; [|by apply (cb_get_ok nn cap)].
    unfold cb_get. by destruct (empty_size _ Ht) as (_ & -> & _).
  Qed.
  Lemma get_mut_facts t E k f :
    cbok t E → k < W128 →
    wp (cb_get_mut k f) t (λ o t', ∃ E', cbok t' E' ∧ o = om_get cmp k E.*2.*2 ∧ E'.*2.*2 = om_alter cmp k f E.*2.*2 ∧
      map sk E' = map sk E ∧ (o = None → t' = t) ∧ cb_nodes t' = cb_nodes t ∧ cb_root t' = cb_root t).
  Proof.
    clear Hc Hnn. intros [[Ht ->]|(U & HR & Hw & ->)] Hk.
    - unfold cb_get_mut. apply wp_bind, wp_mget. destruct (empty_size _ Ht) as (_ & -> & _). apply wp_ret.
      exists []. split_and!; try done. by left.
    - change (ents U).*2.*2 with (kvs U). eapply cb_get_mut_ok; [done|done|done|..].
      + intros Hg. exists (ents U). split_and!; try done; [right; eauto|].
        unfold om_get in Hg. apply fmap_None in Hg. symmetry. clear -Hg. fold (kvs U). induction (kvs U) as [|x l IH]; [done|].
        simpl in *. destruct (k ?= x.1); [done|by rewrite IH|by rewrite IH].
      + intros ctx i j v t' HU Hg HR' Hkv Hn Hr. exists (ents (plug ctx (CL i k j (f v)))). split_and!; try done.
        * right. eexists. split_and!; [done|by eapply wf_upd; rewrite <- HU|done].
        * rewrite HU. apply sk_upd.
  Qed.
  Lemma contains_facts t E k :
    cbok t E → k < W128 → cb_contains t k = Val (match om_get cmp k E.*2.*2 with Some _ => true | None => false end).
  Proof. clear Hc Hnn. intros Hok Hk. apply cb_contains_ok. by apply get_facts. Qed.
  Lemma len_facts t E : cbok t E → cb_len t = lengthN E ∧ cb_capacity t = cap.
  Proof.
    clear Hc Hnn. intros [[Ht ->]|(U & HR & Hw & ->)].
    - destruct (empty_size _ Ht) as (-> & _ & ->). done.
    - destruct (crep_size _ _ _ _ HR) as [_ ->]. split; [done|]. by eapply cb_capacity_ok.
  Qed.
  Lemma min_facts t E : cbok t E → cb_get_min t = Val (head E.*2.*2) ∧ cb_get_max t = Val (last E.*2.*2).
  Proof.
    clear Hc Hnn. intros [[Ht ->]|(U & HR & Hw & ->)].
    - destruct Ht as [Hr _ _]. unfold cb_get_min, cb_get_max, cb_get_min_index, cb_get_max_index. rewrite Hr. done.
    - split; [by apply (get_min_ok nn cap)|by apply (get_max_ok nn cap)].
  Qed.
  Lemma iter_facts t E sc : cbok t E → cb_iterate t sc = Val (de_spec sc E.*2.*2).
  Proof.
    clear Hc Hnn. intros [[Ht ->]|(U & HR & Hw & ->)]; [by apply empty_iter|]. by apply (iterate_ok nn cap).
  Qed.
  Lemma iter_mut_facts t E sc :
    cbok t E → wp (cb_iterate_mut sc) t (λ o t', o = (de_mut_spec upd_lf sc E.*2).1 ∧
      ∃ E', cbok t' E' ∧ E'.*2 = (de_mut_spec upd_lf sc E.*2).2 ∧ map sk E' = map sk E ∧ cb_nodes t' = cb_nodes t ∧ cb_root t' = cb_root t).
  Proof.
    clear Hc Hnn. intros [[Ht ->]|(U & HR & Hw & ->)].
    - eapply wp_intro; [by apply empty_iter_mut|]. split; [done|]. exists []. split_and!; try done; [by left|]. simpl. by rewrite de_mut_nil.
    - eapply wp_mono; [apply (iterate_mut_ok nn cap); exact HR|]. intros o t' (-> & U' & HR' & H1 & H2 & H3 & H4 & H5).
      split; [done|]. exists (ents U'). split_and!; try done. right. exists U'. auto.
  Qed.
  Lemma asc_facts t E : cbok t E → ascending cmp E.*2.*2 ∧ Forall (λ x, x.1 < W128) E.*2.*2 ∧ NoDup E.*2.*1 ∧ NoDup E.*1.
  Proof.
    clear Hc Hnn. intros [[Ht ->]|(U & HR & Hw & ->)]; [split_and!; constructor|].
    split_and!; [by apply wf_asc|by pose proof (keys_wf _ Hw) as Hk; unfold keys in Hk; apply Forall_fmap in Hk| |].
    - destruct HR as [_ _ Hl]. apply CH_NoDup in Hl. unfold lcells in Hl. rewrite <- list_fmap_compose in Hl. rewrite <- list_fmap_compose. exact Hl.
    - destruct HR as [_ (fr & Ho & _) _]. apply AOK_NoDup in Ho. apply NoDup_app in Ho as (Hn & _ & _) || idtac.
      eapply IterProof.NoDup_submseteq; [|exact Ho]. clear. generalize 0. induction U as [|i k p l IHl r IHr]; intros par; simpl; [done|].
      apply submseteq_cons. rewrite !fmap_app. by apply submseteq_app.
  Qed.

  Lemma cb_step_ok o t E :
    u128_op o → cbok t E →
    (call (cb_step o) t).1 = (cb_spec cap o E.*2.*2).1 ∧
    ∃ E', cbok (call (cb_step o) t).2 E' ∧ E'.*2.*2 = (cb_spec cap o E.*2.*2).2 ∧ ckeeps o E E'.
  Proof using GR GA Hc Hnn.
    intros Hu Hi. assert (lengthN E.*2.*2 = lengthN E) as Hlen by (unfold lengthN; by rewrite !fmap_length).
    destruct o as [k v|k|k|k f|k| | | | | |k|k f|sc|sc]; unfold cb_step, om_step, cb_api; cbn [a_insert a_remove a_get a_get_mut a_contains
      a_len a_capacity a_min a_max a_index a_index_mut a_iter a_iter_mut]; simpl u128_op in Hu.
    - pose proof (insert_facts t E k v Hi Hu) as Hins. unfold cb_spec. rewrite Hlen.
      destruct (decide (lengthN E < cap)) as [Hl|Hl].
      + apply wp_elim in Hins as (o & t' & He & i & E' & -> & Hok & HE & Hk & _).
        unfold call, mbind, M_bind. rewrite He. simpl. rewrite Hlen. rewrite decide_True by done. 
        destruct (om_find cmp k E.*2.*2); simpl; (split; [done|]; by exists E').
      + unfold call, mbind, M_bind. rewrite Hins. simpl. split; [done|]. exists E. split_and!; [done|done|apply ckeeps_refl].
    - destruct (wp_elim _ _ _ (remove_facts t E k Hi Hu)) as (o & t' & He & E' & Hok & -> & HE & Hk & _).
      unfold call, mbind, M_bind. rewrite He. simpl. split; [done|]. by exists E'.
    - unfold call, mbind, M_bind, gets. rewrite (get_facts _ _ _ Hi Hu). simpl. split; [done|].
      exists E. split_and!; [done|done|apply ckeeps_refl].
    - destruct (wp_elim _ _ _ (get_mut_facts t E k f Hi Hu)) as (o & t' & He & E' & Hok & -> & HE & Hk & _).
      unfold call, mbind, M_bind. rewrite He. simpl. split; [done|]. exists E'. split_and!; [done|done|by apply ckeeps_sk].
    - unfold call, mbind, M_bind, gets. rewrite (contains_facts _ _ _ Hi Hu). simpl. unfold om_get.
      split; [by destruct (om_find cmp k E.*2.*2)|]. exists E. split_and!; [done|done|apply ckeeps_refl].
    - unfold call, mbind, M_bind, mget. simpl. destruct (len_facts _ _ Hi) as [-> _]. rewrite Hlen. split; [done|].
      exists E. split_and!; [done|done|apply ckeeps_refl].
    - unfold call, mbind, M_bind, mget. simpl. destruct (len_facts _ _ Hi) as [-> _]. split; [by destruct E|].
      exists E. split_and!; [done|done|apply ckeeps_refl].
    - unfold call, mbind, M_bind, mget. simpl. destruct (len_facts _ _ Hi) as [_ ->]. split; [done|].
      exists E. split_and!; [done|done|apply ckeeps_refl].
    - unfold call, mbind, M_bind, gets. destruct (min_facts _ _ Hi) as [-> _]. simpl. split; [done|].
      exists E. split_and!; [done|done|apply ckeeps_refl].
    - unfold call, mbind, M_bind, gets. destruct (min_facts _ _ Hi) as [_ ->]. simpl. split; [done|].
      exists E. split_and!; [done|done|apply ckeeps_refl].
    - unfold call, mbind, M_bind, gets. unfold cb_index, mbind, res_bind. rewrite (get_facts _ _ _ Hi Hu). simpl.
      split; [by destruct (om_get cmp k E.*2.*2)|]. exists E. destruct (om_get cmp k E.*2.*2); (split_and!; [done|done|apply ckeeps_refl]).
    - destruct (wp_elim _ _ _ (get_mut_facts t E k f Hi Hu)) as (o & t' & He & E' & Hok & -> & HE & Hk & _).
      unfold call, mbind, M_bind, cb_index_mut, mbind, M_bind. rewrite He. simpl.
      split; [by destruct (om_get cmp k E.*2.*2)|]. exists E'.
      destruct (om_get cmp k E.*2.*2); (split_and!; [done|done|by apply ckeeps_sk]).
    - unfold call, mbind, M_bind, gets. rewrite (iter_facts _ _ _ Hi). simpl. split; [done|].
      exists E. split_and!; [done|done|apply ckeeps_refl].
    - destruct (wp_elim _ _ _ (iter_mut_facts t E sc Hi)) as (o & t' & He & -> & E' & Hok & HE & Hk & _).
      unfold call, mbind, M_bind. rewrite He. simpl.
      pose proof (de_mut_spec_map snd upd_lf (λ (f : V → V) (x : N * V), (x.1, f x.2)) sc E.*2 (λ _ _, eq_refl)) as Hm.
      change (map snd E.*2) with (E.*2.*2) in Hm. rewrite Hm. simpl. split; [done|]. exists E'.
      split_and!; [done|by rewrite HE|by apply ckeeps_sk].
  Qed.

  Lemma cb_history_ok ops t E :
    Forall u128_op ops → cbok t E →
    (history cb_step ops t).1 = (spec_history (cb_spec cap) ops E.*2.*2).1 ∧
    ∃ E', cbok (history cb_step ops t).2 E' ∧ E'.*2.*2 = (spec_history (cb_spec cap) ops E.*2.*2).2 ∧
      ∀ i j k v, (i, (j, (k, v))) ∈ E → MRemove k ∉ ops → ∃ i' v', (i', (j, (k, v'))) ∈ E'.
  Proof using GR GA Hc Hnn.
    intros Hu. revert t E. induction Hu as [|o ops Ho Hu IH]; intros t E Hi; simpl.
    { split; [done|]. exists E. split_and!; [done|done|]. eauto. }
    destruct (cb_step_ok o t E Ho Hi) as (H1 & E1 & Hi1 & HE1 & Hk1 & _).
    destruct (call (cb_step o) t) as [r s1]. destruct (cb_spec cap o E.*2.*2) as [r' l1]. simpl in *. subst r' l1.
    destruct (IH s1 E1 Hi1) as (H3 & E2 & Hi2 & HE2 & Hk2).
    destruct (history cb_step ops s1). destruct (spec_history (cb_spec cap) ops E1.*2.*2). simpl in *.
    split; [by rewrite H3|]. exists E2. split_and!; [done|done|].
    intros i j k v Hin Hne. apply not_elem_of_cons in Hne as [Hne1 Hne2].
    destruct (Hk1 i j k v Hin) as (i1 & v1 & Hv1); [congruence|]. by eapply Hk2.
  Qed.

  (** *** Shape *)
  Lemma crep_sub t U (ctx : list (frame V)) W :
    crep t U → plug ctx W = U → cb_sub t (cpar ctx) (croot W) (cells W (cpar ctx)).*1 (keys W).
  Proof.
    clear Hc Hnn. intros HR. pose proof (cr_nodes _ _ _ _ HR) as (fr & Ho & _). revert ctx.
    induction W as [i k j v|i k p l IHl r IHr]; intros ctx <-.
    - pose proof (CL_cell ctx i k j v) as Hin. simpl. unfold keys. simpl.
      assert ((i, (j, (k, v))) ∈ ents (plug ctx (CL i k j v))) as He. { rewrite ents_plug. simpl. rewrite elem_of_app, elem_of_cons. auto. }
      destruct (entry_ok _ _ _ _ _ HR He) as [Hent Hz]. simpl in *.
      eapply cb_sub_leaf; [done|exact (rd_left _ _ _ _ Ho _ _ _ _ _ _ Hin)|exact (rd_right _ _ _ _ Ho _ _ _ _ _ _ Hin)|
        exact (rd_parent _ _ _ _ Ho _ _ _ _ _ _ Hin)|exact (rd_leaf_index _ _ _ _ Ho _ _ _ _ _ _ Hin)| |exact Hent].
      destruct HR as [_ _ Hl]. eapply CH_nz; [exact Hl|apply lcell_in].
    - pose proof (CI_cell ctx i k p l r) as Hin. cbn [cells croot]. rewrite keys_CI, fmap_cons, fmap_app.
      eapply cb_sub_inner; [|exact (rd_left _ _ _ _ Ho _ _ _ _ _ _ Hin)|exact (rd_right _ _ _ _ Ho _ _ _ _ _ _ Hin)|
        exact (rd_parent _ _ _ _ Ho _ _ _ _ _ _ Hin)|exact (rd_leaf_index _ _ _ _ Ho _ _ _ _ _ _ Hin)| |].
      + eapply AOK_nz; [exact Ho|exact Hin].
      + by apply (IHl (Fr false i k p r :: ctx)).
      + by apply (IHr (Fr true i k p l :: ctx)).
  Qed.
  Lemma add_all_ok {T} nr c (a : alloc T) cs fr vs :
    AOK nr c a cs fr → lengthN cs + lengthN vs ≤ c →
    ∃ is a', add_all vs a = Ret is a' ∧ lengthN is = lengthN vs ∧ NoDup is ∧ (∀ i, i ∈ is → i ∉ cs.*1).
  Proof.
    clear. revert a cs fr. induction vs as [|v vs IH]; intros a cs fr Ho Hl; simpl.
    { exists [], a. split_and!; try done; [constructor|]. intros i Hi. by apply elem_of_nil in Hi. }
    rewrite lengthN_cons in Hl. destruct (na_add_node_ok _ _ _ _ _ v Ho) as (i & tl & fr' & a' & He & Ho' & _); [lia|].
    destruct (IH _ _ _ Ho') as (is & a2 & He2 & Hl2 & Hnd & Hdis); [rewrite lengthN_cons; lia|].
    exists (i :: is), a2. unfold mbind, M_bind. rewrite He, He2. split_and!; [done|by rewrite !lengthN_cons, Hl2| |].
    - constructor; [|done]. intros Hi. apply Hdis in Hi. apply Hi. simpl. apply elem_of_list_here.
    - apply AOK_NoDup in Ho'. cbn [fmap list_fmap fst] in Ho'. rewrite NoDup_cons in Ho'. destruct Ho' as [Hni _].
      intros j [->|Hj]%elem_of_cons; [done|]. apply Hdis in Hj. simpl in Hj. by apply not_elem_of_cons in Hj as [_ ?].
  Qed.
  (** prefix lengths grow downwards, so the tree is at most 129 nodes deep *)
  Lemma depth_le U : wf U → (cheight U + N.to_nat (rplen U) ≤ 129)%nat.
  Proof.
    clear. assert (∀ (W : ctree) b p k, wf W → p < 128 → Forall (λ x, pre p k x ∧ bit x p = b) (keys W) → p < rplen W) as Hgrow.
    { intros W b p k Hw Hp Hf. destruct W as [|i kk q l r]; simpl; [done|]. destruct Hw as (Hq & Hkk & Hl & Hr & _ & _).
      rewrite keys_CI in Hf. apply Forall_app in Hf as [Hf1 Hf2].
      assert (∃ x, x ∈ keys l) as [x Hx]. { pose proof (kvs_ne l) as Hne. unfold keys. destruct (kvs l) as [|kv ?]; [done|]. exists kv.1. simpl. apply elem_of_list_here. }
      assert (∃ y, y ∈ keys r) as [y Hy]. { pose proof (kvs_ne r) as Hne. unfold keys. destruct (kvs r) as [|kv ?]; [done|]. exists kv.1. simpl. apply elem_of_list_here. }
      rewrite Forall_forall in *. destruct (Hf1 _ Hx) as [Hx1 Hx2]. destruct (Hf2 _ Hy) as [Hy1 Hy2].
      destruct (Hl _ Hx) as [_ Hx3]. destruct (Hr _ Hy) as [_ Hy3].
      destruct (decide (p < q)) as [|Hn]; [done|]. exfalso.
      destruct (decide (p = q)) as [->|Hne]; [congruence|].
      assert (bit k q = bit x q) as Ha by (apply Hx1; lia). assert (bit k q = bit y q) as Hb by (apply Hy1; lia). congruence. }
    induction U as [i k j v|i k p l IHl r IHr]; intros Hw; simpl; [done|].
    destruct Hw as (Hp & Hk & Hl & Hr & Hwl & Hwr). specialize (IHl Hwl). specialize (IHr Hwr).
    pose proof (Hgrow _ _ _ _ Hwl Hp Hl). pose proof (Hgrow _ _ _ _ Hwr Hp Hr). lia.
  Qed.
End main.

Section reach.
  Context `{Profile} {V : Type} (nn ms : nat) (d : V) (t0 : critbit V) (H0 : (0 < ms)%nat) (Hw : N.of_nat nn + 1 < W32)
    (Hnew : cb_new nn ms d = Some t0).
  Notation ops := (list (om_op N V)).
  Notation cap := (N.of_nat ms).
  Notation cmp := N.compare.
  Notation after o := (history cb_step o t0).2.
  Definition cb_contents (o : ops) : list (N * V) := (spec_history (cb_spec cap) o []).2.
  Notation contents := cb_contents.
  Notation cbok := (cbok (N.of_nat nn) cap).

  Lemma new_ok : cbok t0 [] ∧ 2 * cap ≤ N.of_nat nn ∧ 0 < cap.
  Proof using All.
    unfold cb_new in Hnew. destruct (decide _) as [Hd|]; [|done]. injection Hnew as <-. split_and!; [|lia|lia].
    left. split; [|done]. constructor; cbn [cb_root cb_nodes cb_leaves]; [done| |].
    - exists []. split_and!; [apply na_new_ok; done || lia|constructor|done].
    - apply CH_new; done || lia.
  Qed.
  Lemma cb_reach (o : ops) :
    Forall u128_op o → (history cb_step o t0).1 = (spec_history (cb_spec cap) o []).1 ∧ ∃ E, cbok (after o) E ∧ E.*2.*2 = contents o.
  Proof using All.
    intros Hu. destruct new_ok as (Hok & Hn & Hc). destruct (cb_history_ok _ _ Hc Hn o t0 [] Hu Hok) as (H1 & E & HE & He & _).
    split; [done|]. by exists E.
  Qed.

  Section one.
    Context (o : ops) (Hu : Forall u128_op o).
    Lemma cb_iter_fact :
      ascending cmp (contents o) ∧ Forall (λ x, x.1 < W128) (contents o) ∧
      ∀ script, cb_iterate (after o) script = Val (de_spec script (contents o)).
    Proof using All.
      destruct (cb_reach o Hu) as (_ & E & HE & <-). destruct (asc_facts _ _ _ _ HE) as (H1 & H2 & _). split_and!; [done|done|].
      intros sc. by apply (iter_facts _ _ _ _ sc HE).
    Qed.
    Lemma cb_min_fact :
      match head (contents o) with
      | None => cb_get_min (after o) = Val None ∧ cb_get_min_index (after o) = Val SENTINEL
      | Some kv => cb_get_min (after o) = Val (Some kv) ∧ (∀ kv', kv' ∈ contents o → kv' = kv ∨ kv.1 < kv'.1) ∧
          ∃ i, cb_get_min_index (after o) = Val i ∧ cb_get_addr (after o) kv.1 = Val i
      end.
    Proof using All.
      destruct (cb_reach o Hu) as (_ & E & HE & <-). destruct (min_facts _ _ _ _ HE) as [Hm _].
      destruct (asc_facts _ _ _ _ HE) as (Ha & _). destruct (head E.*2.*2) as [kv|] eqn:Eh.
      - split_and!; [done| |].
        + intros kv' Hin. destruct (asc_head _ _ _ _ Ha Eh Hin) as [->|Hlt]; [by left|right]. by apply N.compare_lt_iff.
        + destruct HE as [[_ ->]|(U & HR & HwU & ->)]; [done|]. exists (cmin U).1.
          pose proof (cr_nodes _ _ _ _ HR) as (fr & Ho & _). unfold cb_get_min_index. rewrite (cr_root _ _ _ _ HR).
          split; [apply (find_min_ok _ _ _ [] U fr Ho); etrans; [apply cheight_csize|by eapply crep_fuel]|].
          pose proof (cmin_head U) as Hh. assert (cmin U ∈ ents U) as Hin by (by apply head_Some_elem_of).
          assert ((cmin U).2.2 = kv) as <-. { destruct (ents U); [done|]. simpl in *. congruence. }
          destruct (cmin U) as (i & j & k & v). by eapply addr_mem.
      - destruct HE as [[[Hr _ _] ->]|(U & HR & HwU & ->)].
        + split; [done|]. unfold cb_get_min_index. by rewrite Hr.
        + pose proof (ents_ne U). by destruct (ents U).
    Qed.
    Lemma cb_max_fact :
      match last (contents o) with
      | None => cb_get_max (after o) = Val None ∧ cb_get_max_index (after o) = Val SENTINEL
      | Some kv => cb_get_max (after o) = Val (Some kv) ∧ (∀ kv', kv' ∈ contents o → kv' = kv ∨ kv'.1 < kv.1) ∧
          ∃ i, cb_get_max_index (after o) = Val i ∧ cb_get_addr (after o) kv.1 = Val i
      end.
    Proof using All.
      destruct (cb_reach o Hu) as (_ & E & HE & <-). destruct (min_facts _ _ _ _ HE) as [_ Hm].
      destruct (asc_facts _ _ _ _ HE) as (Ha & _). destruct (last E.*2.*2) as [kv|] eqn:Eh.
      - split_and!; [done| |].
        + intros kv' Hin. destruct (asc_last _ _ _ _ Ha Eh Hin) as [->|Hlt]; [by left|right]. by apply N.compare_lt_iff.
        + destruct HE as [[_ ->]|(U & HR & HwU & ->)]; [done|]. exists (cmax U).1.
          pose proof (cr_nodes _ _ _ _ HR) as (fr & Ho & _). unfold cb_get_max_index. rewrite (cr_root _ _ _ _ HR).
          split; [apply (find_max_ok _ _ _ [] U fr Ho); etrans; [apply cheight_csize|by eapply crep_fuel]|].
          pose proof (cmax_last U) as Hh. assert (cmax U ∈ ents U) as Hin by (by apply last_Some_elem_of).
          assert ((cmax U).2.2 = kv) as <-. { rewrite !fmap_last, Hh in Eh. simpl in Eh. congruence. }
          destruct (cmax U) as (i & j & k & v). by eapply addr_mem.
      - destruct HE as [[[Hr _ _] ->]|(U & HR & HwU & ->)].
        + split; [done|]. unfold cb_get_max_index. by rewrite Hr.
        + pose proof (ents_ne U). rewrite !fmap_last in Eh. destruct (last (ents U)) eqn:El; [done|]. by apply last_None in El.
    Qed.
    Lemma cb_addr_fact k :
      k < W128 → contents o ≠ [] →
      match om_get cmp k (contents o) with
      | Some v => ∃ i, cb_get_addr (after o) k = Val i ∧ i ≠ SENTINEL ∧ cb_is_inner_node (after o) i = Val false ∧ cb_entry (after o) i = Val (k, v)
      | None => cb_get_addr (after o) k = Val SENTINEL
      end.
    Proof using All.
      intros Hk Hne. destruct (cb_reach o Hu) as (_ & E & HE & He). rewrite <- He in Hne |- *.
      destruct HE as [[_ ->]|(U & HR & HwU & ->)]; [done|]. pose proof (addr_spec _ _ _ _ _ HR HwU Hk) as Ha.
      unfold om_get. change (ents U).*2.*2 with (kvs U). destruct (om_find cmp k (kvs U)) as [[k' v]|]; [|done].
      simpl. destruct Ha as (i & j & Hin & Hkk & Ha). simpl in Hkk. subst k'. exists i. destruct (entry_ok _ _ _ _ _ HR Hin) as [Hent Hz].
      split_and!; try done. pose proof (cr_nodes _ _ _ _ HR) as (fr & Ho & _). destruct (ent_plug _ _ _ _ _ Hin) as [ctx <-].
      rewrite (rd_inner _ _ _ _ Ho _ _ _ _ _ _ (CL_cell _ _ _ _ _)). f_equal. apply bool_decide_false.
      destruct HR as [_ _ Hl]. eapply CH_nz; [exact Hl|apply lcell_in].
    Qed.
    Lemma cb_addr_empty_fact k : contents o = [] → cb_get_addr (after o) k = Err Panic.
    Proof using All.
      intros Hne. destruct (cb_reach o Hu) as (_ & E & HE & He). rewrite Hne in He. apply fmap_nil_inv in He. apply fmap_nil_inv in He. subst E.
      destruct HE as [[Ht _]|(U & HR & HwU & Heq)]; [by eapply empty_addr|]. by destruct (ents_ne _ (eq_sym Heq)).
    Qed.
    Lemma cb_lookups_fact k :
      k < W128 → cb_get (after o) k = Val (om_get cmp k (contents o)) ∧
      cb_contains (after o) k = Val (match om_get cmp k (contents o) with Some _ => true | None => false end).
    Proof using All.
      intros Hk. destruct (cb_reach o Hu) as (_ & E & HE & <-). split; [by eapply get_facts|by eapply contains_facts].
    Qed.
    Lemma cb_index_fact k f :
      k < W128 →
      match om_get cmp k (contents o) with
      | Some v => cb_get (after o) k = Val (Some v) ∧ cb_index (after o) k = Val v ∧
                  ∃ t', cb_index_mut k f (after o) = Ret v t' ∧
                        ∀ script, cb_iterate t' script = Val (de_spec script (om_alter cmp k f (contents o)))
      | None => cb_get (after o) k = Val None ∧ cb_index (after o) k = Err Panic ∧ cb_index_mut k f (after o) = Fail Panic (after o)
      end.
    Proof using All.
      intros Hk. destruct (cb_reach o Hu) as (_ & E & HE & <-).
      pose proof (get_facts _ _ _ _ _ HE Hk) as Hg. unfold cb_index, mbind, res_bind. rewrite Hg.
      destruct (wp_elim _ _ _ (get_mut_facts _ _ _ _ _ f HE Hk)) as (r & t' & He & E' & Hok & -> & HE' & _ & Hn & _).
      unfold cb_index_mut, mbind, M_bind. rewrite He. destruct (om_get cmp k E.*2.*2) as [v|].
      - split_and!; [done|done|]. exists t'. split; [done|]. intros sc. rewrite <- HE'. by eapply iter_facts.
      - split_and!; [done|done|]. by rewrite Hn.
    Qed.
    Lemma cb_full_fact k v : k < W128 → cb_len (after o) = cap → cb_insert k v (after o) = Ret None (after o).
    Proof using All.
      intros Hk Hl. destruct new_ok as (_ & Hn & Hc). destruct (cb_reach o Hu) as (_ & E & HE & _).
      pose proof (insert_facts _ _ Hc Hn _ _ k v HE Hk) as Hi. destruct (len_facts _ _ _ _ HE) as [Hlen _].
      rewrite decide_False in Hi by lia. done.
    Qed.
    Lemma cb_update_fact k v v0 :
      k < W128 → cb_len (after o) < cap → om_get cmp k (contents o) = Some v0 →
      ∃ i t', cb_insert k v (after o) = Ret (Some i) t' ∧ cb_get_addr (after o) k = Val i ∧ cb_get_addr t' k = Val i ∧
        cb_get t' k = Val (Some v) ∧ cb_len t' = cb_len (after o) ∧
        ∀ script, cb_iterate t' script = Val (de_spec script (om_insert cmp k v (contents o))).
    Proof using All.
      intros Hk Hl Hg. destruct new_ok as (_ & Hn & Hc). destruct (cb_reach o Hu) as (_ & E & HE & He0). rewrite <- He0 in *.
      pose proof (insert_facts _ _ Hc Hn _ _ k v HE Hk) as Hi. destruct (len_facts _ _ _ _ HE) as [Hlen _].
      rewrite decide_True in Hi by lia. apply wp_elim in Hi as (r & t' & He & i & E' & -> & Hok & HE' & _ & (j & Hin) & Hsk).
      exists i, t'. split; [done|]. 
      assert (om_find cmp k E.*2.*2 ≠ None) as Hf. { unfold om_get in Hg. intros Hx. rewrite Hx in Hg. discriminate Hg. }
      specialize (Hsk Hf).
      assert (sk (i, (j, (k, v))) ∈ map sk E) as Hin0. { rewrite <- Hsk. by apply (elem_of_list_fmap_1 sk). }
      apply elem_of_list_fmap in Hin0 as ([i0 [j0 [k0 v1]]] & Heq & Hin0). unfold sk in Heq. simpl in Heq. injection Heq as <- <- <-.
      pose proof (get_facts _ _ _ _ _ Hok Hk) as Hget. destruct (len_facts _ _ _ _ Hok) as [Hlen' _].
      split_and!.
      - destruct HE as [[_ ->]|(U & HR & HwU & ->)]; [by apply elem_of_nil in Hin0|]. by eapply addr_mem.
      - destruct Hok as [[_ ->]|(U & HR & HwU & ->)]; [by apply elem_of_nil in Hin|]. by eapply addr_mem.
      - rewrite Hget. f_equal. rewrite HE'. destruct (asc_facts _ _ _ _ Hok) as (Ha & _). rewrite <- HE'.
        unfold om_get. assert ((k, v) ∈ E'.*2.*2) as Hkv. { by do 2 apply (elem_of_list_fmap_1 snd) in Hin. }
        apply elem_of_list_split in Hkv as (A & B & HAB). rewrite HAB in Ha |- *. apply (ascending_mid _ N_laws) in Ha as (_ & _ & Hb & _).
        rewrite om_find_found; [done|done|apply N.compare_refl].
      - rewrite Hlen', Hlen. apply (f_equal length) in Hsk. rewrite !map_length in Hsk. unfold lengthN. by rewrite Hsk.
      - intros sc. rewrite <- HE'. by eapply iter_facts.
    Qed.
    Lemma cb_iter_mut_fact script :
      ∃ (es : list (N * (N * V))) t',
        es.*2 = contents o ∧ (∀ j kv, (j, kv) ∈ es → cb_value_slot (after o) kv.1 = Val j) ∧
        let '(out, es') := de_mut_spec (λ f e, (e.1, (e.2.1, f e.2.2))) script es in
        cb_iterate_mut script (after o) = Ret out t' ∧ NoDup (map fst (omap id out)) ∧
        es'.*1 = es.*1 ∧ es'.*2.*1 = es.*2.*1 ∧ cb_root t' = cb_root (after o) ∧ cb_nodes t' = cb_nodes (after o) ∧
        (∀ j kv, (j, kv) ∈ es' → cb_value_slot t' kv.1 = Val j ∧ cb_get t' kv.1 = Val (Some kv.2)) ∧
        ∀ script', cb_iterate t' script' = Val (de_spec script' es'.*2).
    Proof using All.
      destruct (cb_reach o Hu) as (_ & E & HE & <-).
      destruct (wp_elim _ _ _ (iter_mut_facts _ _ _ _ script HE)) as (out & t' & He & Hout & E' & Hok & HE' & Hsk & Hn & Hr).
      exists E.*2, t'. split; [done|].
      assert (∀ (t : critbit V) (E : list (N * (N * (N * V)))) j kv, cbok t E → (j, kv) ∈ E.*2 → cb_value_slot t kv.1 = Val j) as Hslot.
      { clear. intros t E j [k v] Hok ([i [j' kv]] & Heq & Hin)%elem_of_list_fmap. simpl in Heq. injection Heq as <- <-. simpl.
        destruct Hok as [[_ ->]|(U & HR & HwU & ->)]; [by apply elem_of_nil in Hin|]. unfold cb_value_slot, mbind, res_bind.
        rewrite (addr_mem _ _ _ _ _ _ _ _ HR HwU Hin). destruct HR as [_ (fr & Ho & _) _]. destruct (ent_plug _ _ _ _ _ Hin) as [ctx <-].
        by rewrite (rd_leaf_index _ _ _ _ Ho _ _ _ _ _ _ (CL_cell _ _ _ _ _)). }
      split; [intros j kv Hin; by eapply Hslot|].
      change (λ (f : V → V) (e : N * (N * V)), (e.1, (e.2.1, f e.2.2))) with (upd_lf (V:=V)).
      pose proof (de_mut_spec_out upd_lf script E.*2) as Ho2.
      pose proof (de_mut_spec_keys upd_lf fst script E.*2 (λ _ _, eq_refl)) as Hk1.
      pose proof (de_mut_spec_keys upd_lf (λ x : N * (N * V), x.2.1) script E.*2 (λ _ _, eq_refl)) as Hk2.
      destruct (de_mut_spec upd_lf script E.*2) as [out' es']. simpl in *. subst out es'.
      destruct (asc_facts _ _ _ _ HE) as (_ & _ & Hnd & _).
      split_and!; [done| |exact Hk1| |done|done| |].
      - rewrite Ho2. by apply de_spec_NoDup.
      - rewrite <- !list_fmap_compose in *. exact Hk2.
      - intros j kv Hin. split; [by eapply Hslot|].
        destruct (asc_facts _ _ _ _ Hok) as (Ha & Hkw & _). assert (kv ∈ E'.*2.*2) as Hkv by (by apply (elem_of_list_fmap_1 snd) in Hin).
        rewrite Forall_forall in Hkw. rewrite (get_facts _ _ _ _ _ Hok (Hkw _ Hkv)).
        apply elem_of_list_split in Hkv as (A & B & HAB). rewrite HAB in Ha |- *. apply (ascending_mid _ N_laws) in Ha as (_ & _ & Hb & _).
        unfold om_get. rewrite om_find_found; [done|done|apply N.compare_refl].
      - intros sc. by apply (iter_facts _ _ _ _ sc Hok).
    Qed.
    (** *** Nodes of the pool *)
    Lemma cb_nodes_fact :
      cb_len (after o) = lengthN (contents o) ∧
      match contents o with
      | [] => cb_root (after o) = SENTINEL ∧ size (cb_nodes (after o)) = 0
      | _ => ∃ ns, cb_sub (after o) SENTINEL (cb_root (after o)) ns (contents o).*1 ∧ NoDup ns ∧
               lengthN ns = 2 * cb_len (after o) - 1 ∧ size (cb_nodes (after o)) = 2 * cb_len (after o) - 1
      end ∧
      (∀ vs, size (cb_nodes (after o)) + lengthN vs ≤ N.of_nat nn → ∃ is nd', add_all vs (cb_nodes (after o)) = Ret is nd' ∧ NoDup is ∧
         ∀ ns ks, cb_sub (after o) SENTINEL (cb_root (after o)) ns ks → ∀ i, i ∈ is → i ∉ ns) ∧
      (∀ vs, cb_len (after o) + lengthN vs ≤ cap → ∃ is lv', add_all vs (cb_leaves (after o)) = Ret is lv' ∧ NoDup is).
    Proof using All.
      destruct (cb_reach o Hu) as (_ & E & HE & <-). destruct (len_facts _ _ _ _ HE) as [Hlen _].
      assert (∀ (t : critbit V) i par ns ks ns' ks', cb_sub t par i ns ks → cb_sub t par i ns' ks' → ns' = ns) as Hdet.
      { clear. intros t i par ns ks ns' ks' Hs. revert ns' ks'. induction Hs as [par i k v li|par i l r nl nr kl kr];
          intros ns' ks' Hs'; inversion Hs'; subst; try done; try congruence.
        assert (l = l0) as <- by congruence. assert (r = r0) as <- by congruence. f_equal. f_equal; eauto. }
      rewrite Hlen. split; [unfold lengthN; by rewrite !fmap_length|].
      destruct HE as [[[Hr (fr & Ho & _) Hl] ->]|(U & HR & HwU & ->)]; [cbn [fmap list_fmap]|].
      - split_and!; [done|by apply (ok_size _ _ _ _ _ Ho)| |].
        + intros vs Hvs. rewrite (ok_size _ _ _ _ _ Ho) in Hvs. destruct (add_all_ok _ _ _ _ _ vs Ho) as (is & a' & He & _ & Hnd & _); [done|].
          exists is, a'. split_and!; [done|done|]. rewrite Hr. intros ns ks Hs. inversion Hs; done.
        + intros vs Hvs. destruct Hl as (fl & Hl & _). destruct (add_all_ok _ _ _ _ _ vs Hl) as (is & a' & He & _ & Hnd & _); [done|].
          by exists is, a'.
      - destruct (crep_size _ _ _ _ HR) as [Hsz _]. change (ents U).*2.*2 with (kvs U).
        pose proof (crep_sub _ _ _ _ [] U HR eq_refl) as Hsub. simpl cpar in Hsub. rewrite <- (cr_root _ _ _ _ HR) in Hsub.
        pose proof (cr_nodes _ _ _ _ HR) as (fr & Ho & _). pose proof (AOK_NoDup _ _ _ _ _ Ho) as Hnd.
        split_and!.
        + pose proof (kvs_ne U). destruct (kvs U) as [|kv l] eqn:Ek; [done|]. rewrite <- Ek. exists (cells U 0).*1. split_and!; [exact Hsub|done| |lia].
          pose proof (csize_ents U). unfold lengthN. rewrite fmap_length, cells_length. lia.
        + intros vs Hvs. rewrite (ok_size _ _ _ _ _ Ho) in Hvs. destruct (add_all_ok _ _ _ _ _ vs Ho) as (is & a' & He & _ & Hnd2 & Hdis); [done|].
          exists is, a'. split_and!; [done|done|]. intros ns ks Hs. rewrite (Hdet _ _ _ _ _ _ _ Hsub Hs). apply Hdis.
        + intros vs Hvs. pose proof (cr_leaves _ _ _ _ HR) as (fl & Hl & _).
          destruct (add_all_ok _ _ _ _ _ vs Hl) as (is & a' & He & _ & Hnd2 & _); [|by exists is, a'].
          unfold lcells. unfold lengthN at 1. rewrite map_length. done.
    Qed.
    Lemma cb_steps_fact k n : k < W128 → contents o ≠ [] → (129 ≤ n)%nat → cb_walk n (after o) k (cb_root (after o)) = cb_get_addr (after o) k.
    Proof using All.
      intros Hk Hne Hn. destruct (cb_reach o Hu) as (_ & E & HE & He). rewrite <- He in Hne.
      destruct HE as [[_ ->]|(U & HR & HwU & ->)]; [done|]. rewrite (cb_addr_ok _ _ _ _ _ HR HwU Hk). rewrite (cr_root _ _ _ _ HR).
      pose proof (cr_nodes _ _ _ _ HR) as (fr & Ho & _). eapply (walk_ok _ _ _ [] U fr); try done; [by destruct HR|].
      pose proof (depth_le _ HwU). lia.
    Qed.
    (** *** Addresses *)
    Lemma cb_insert_addr_fact k v i t1 :
      k < W128 → cb_insert k v (after o) = Ret (Some i) t1 → cb_get_addr t1 k = Val i ∧ cb_entry t1 i = Val (k, v).
    Proof using All.
      intros Hk He. destruct new_ok as (_ & Hn & Hc). destruct (cb_reach o Hu) as (_ & E & HE & _).
      pose proof (insert_facts _ _ Hc Hn _ _ k v HE Hk) as Hi. destruct (decide (lengthN E < cap)) as [Hl|Hl]; [|congruence].
      apply wp_elim in Hi as (r & t' & He' & i' & E' & -> & Hok & HE' & _ & (j & Hin) & _). rewrite He in He'. injection He' as <- <-.
      destruct Hok as [[_ ->]|(U & HR & HwU & ->)]; [by apply elem_of_nil in Hin|]. split; [by eapply addr_mem|].
      by apply (entry_ok _ _ _ _ _ HR Hin).
    Qed.
    Lemma cb_slot_fact o' k j :
      Forall u128_op o' → k < W128 → om_get cmp k (contents o) ≠ None → MRemove k ∉ o' →
      cb_value_slot (after o) k = Val j →
      let t2 := (history cb_step o' (after o)).2 in
      cb_value_slot t2 k = Val j ∧ ∃ v', cb_get_leaf t2 j = Val v' ∧ cb_get t2 k = Val (Some v').
    Proof using All.
      intros Hu' Hk Hg Hnr Hj. destruct new_ok as (_ & Hn & Hc). destruct (cb_reach o Hu) as (_ & E & HE & He0). rewrite <- He0 in Hg.
      destruct (cb_history_ok _ _ Hc Hn o' _ _ Hu' HE) as (_ & E2 & HE2 & _ & Hkeep). simpl.
      assert (∃ i v, (i, (j, (k, v))) ∈ E) as (i & v & Hin).
      { destruct HE as [[_ ->]|(U & HR & HwU & ->)]; [done|]. pose proof (addr_spec _ _ _ _ _ HR HwU Hk) as Ha.
        unfold om_get in Hg. change (ents U).*2.*2 with (kvs U) in Hg. destruct (om_find cmp k (kvs U)) as [[k' v]|]; [|done].
        destruct Ha as (i & j' & Hin & Hkk & Ha). simpl in Hkk. subst k'. unfold cb_value_slot, mbind, res_bind in Hj. rewrite Ha in Hj.
        pose proof (cr_nodes _ _ _ _ HR) as (fr & Ho & _). destruct (ent_plug _ _ _ _ _ Hin) as [ctx He].
        rewrite <- He in Ho. rewrite (rd_leaf_index _ _ _ _ Ho _ _ _ _ _ _ (CL_cell _ _ _ _ _)) in Hj. injection Hj as <-. eauto. }
      destruct (Hkeep _ _ _ _ Hin Hnr) as (i2 & v2 & Hin2).
      set (t2 := (history cb_step o' (after o)).2) in *. clearbody t2.
      pose proof (get_facts _ _ _ _ _ HE2 Hk) as Hget. destruct (asc_facts _ _ _ _ HE2) as (Ha & _).
      assert ((k, v2) ∈ E2.*2.*2) as Hkv. { clear -Hin2. by do 2 apply (elem_of_list_fmap_1 snd) in Hin2. }
      apply elem_of_list_split in Hkv as (A & B & HAB). rewrite HAB in Ha, Hget. apply (ascending_mid _ N_laws) in Ha as (_ & _ & Hb & _).
      unfold om_get in Hget. rewrite om_find_found in Hget by (done || apply N.compare_refl). simpl in Hget.
      destruct HE2 as [[_ ->]|(U & HR & HwU & ->)]; [by apply elem_of_nil in Hin2|].
      pose proof (cr_nodes _ _ _ _ HR) as (fr & Ho & _). pose proof (cr_leaves _ _ _ _ HR) as Hl.
      pose proof (addr_mem _ _ _ _ _ _ _ _ HR HwU Hin2) as Had.
      destruct (ent_plug _ _ _ _ _ Hin2) as [ctx He]. rewrite <- He in Ho, Hl. split.
      - unfold cb_value_slot, mbind, res_bind. rewrite Had. by rewrite (rd_leaf_index _ _ _ _ Ho _ _ _ _ _ _ (CL_cell _ _ _ _ _)).
      - exists v2. split; [|done]. unfold cb_get_leaf. by rewrite (CH_get _ _ _ _ _ _ Hl (lcell_in _ _ _ _ _)).
    Qed.
    Lemma cb_addr_same_fact op k :
      u128_op op → k < W128 → (cb_spec cap op (contents o)).2.*1 = (contents o).*1 →
      cb_get_addr (call (cb_step op) (after o)).2 k = cb_get_addr (after o) k.
    Proof using All.
      intros Hop Hk Hkeys. destruct new_ok as (_ & Hn & Hc). destruct (cb_reach o Hu) as (_ & E & HE & He). rewrite <- He in Hkeys.
      destruct (cb_step_ok _ _ Hc Hn op _ _ Hop HE) as (_ & E' & HE' & HEE & _ & Hsk). rewrite <- HEE in Hkeys. specialize (Hsk Hkeys).
      set (t1 := (call (cb_step op) (after o)).2) in *. set (t := after o) in *. clearbody t1 t. clear HEE He.
      destruct HE as [[Ht ->]|(U & HR & HwU & ->)].
      { destruct E'; [|done]. destruct HE' as [[Ht' _]|(U & HR & _ & Heq)]; [|by destruct (ents_ne _ (eq_sym Heq))].
        rewrite (empty_addr _ _ _ _ Ht), (empty_addr _ _ _ _ Ht'); [done|lia|lia]. }
      destruct HE' as [[Ht' ->]|(U' & HR' & HwU' & ->)].
      { destruct (ents U) eqn:Eu; [by destruct (ents_ne _ Eu)|done]. }
      pose proof (addr_spec _ _ _ _ _ HR HwU Hk) as Ha. pose proof (addr_spec _ _ _ _ _ HR' HwU' Hk) as Ha'.
      destruct (om_find cmp k (kvs U)) as [[k1 v1]|] eqn:E1.
      - destruct Ha as (i & j & Hin & Hk1 & ->). simpl in Hk1. subst k1.
        assert (sk (i, (j, (k, v1))) ∈ map sk (ents U')) as Hin'. { rewrite Hsk. by apply (elem_of_list_fmap_1 sk). }
        apply elem_of_list_fmap in Hin' as ([i2 [j2 [k2 v2]]] & Heq & Hin'). unfold sk in Heq. simpl in Heq. injection Heq as <- <- <-.
        by eapply addr_mem.
      - rewrite Ha. destruct (om_find cmp k (kvs U')) as [[k1 v1]|] eqn:E2; [|done].
        destruct Ha' as (i & j & Hin & Hk1 & _). simpl in Hk1. subst k1.
        assert (k ∈ keys U) as Hku.
        { change (keys U) with (ents U).*2.*2.*1. rewrite <- Hkeys. by do 2 apply (elem_of_list_fmap_1 snd) in Hin; apply (elem_of_list_fmap_1 fst) in Hin. }
        exfalso. clear -E1 Hku. unfold keys in Hku. induction (kvs U) as [|x l IH]; [by apply elem_of_nil in Hku|].
        simpl in *. destruct (N.compare_spec k x.1); [done|..]; (apply elem_of_cons in Hku as [->|Hku]; [lia|auto]).
    Qed.
  End one.
End reach.
