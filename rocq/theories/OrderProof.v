(** * HashTable: the exact behaviour of the chains, for every [==] and hash *)
From Verif Require Export OrderSpec HashMain.

Lemma dk_never {K V} (l : list (K * V)) : distinct_keys (λ _ _, false) l.
Proof. unfold distinct_keys. induction l as [|x l IH]; constructor; [|done]. by apply Forall_forall. Qed.

Section order.
  Context `{Profile} {K V : Type} (keq : K → K → bool) (hash : K → N) (cap : N).
  Implicit Types h : htable K V.
  Implicit Types es : list (N * (K * V)).
  Implicit Types bs : list (list (N * (K * V))).
  (** The chains are sound; nothing is said about equal keys *)
  Notation CK := (HOK (λ _ _ : K, false) hash cap).
  Notation pairs := (map (map (@snd N (K * V)))).

  Lemma CK_update h bs b es es' a' :
    CK h bs → bs !! b = Some es → CH 4 cap a' (hseg 0 es' 0 ++ hoth b bs) →
    Forall (λ e, hash e.2.1 mod lengthN bs = N.of_nat b) es' →
    CK (HT (<[b:=fst0 0 es']> (buckets h)) a') (<[b:=es']> bs).
  Proof.
    intros [] Hb Ha Hh. assert (b < length bs)%nat as Hlt by (by eapply lookup_lt_Some). constructor; simpl.
    - by rewrite hcells_focus.
    - rewrite ho_bk. symmetry. apply (list_fmap_insert (fst0 0)).
    - intros He. apply ho_ne. apply nil_length_inv. rewrite <- (insert_length bs b es'). by rewrite He.
    - intros b' es0 Hb0. unfold lengthN. rewrite insert_length. change (N.of_nat (length bs)) with (lengthN bs).
      destruct (decide (b = b')) as [<-|Hne].
      + rewrite list_lookup_insert in Hb0 by done. by injection Hb0 as <-.
      + rewrite list_lookup_insert_ne in Hb0 by done. by apply ho_hash.
    - apply dk_never.
  Qed.
  Lemma CK_bucket h bs b es : CK h bs → bs !! b = Some es → buckets h !! b = Some (fst0 0 es).
  Proof. intros [] Hb. rewrite ho_bk. etrans; [apply (list_lookup_fmap (fst0 0) bs b)|]. by rewrite Hb. Qed.
  Lemma CK_update' h bs b es es' a' :
    CK h bs → bs !! b = Some es → CH 4 cap a' (hseg 0 es' 0 ++ hoth b bs) →
    Forall (λ e, hash e.2.1 mod lengthN bs = N.of_nat b) es' → fst0 0 es' = fst0 0 es →
    CK (set_hal a' h) (<[b:=es']> bs).
  Proof.
    intros Hok Hb Ha Hh Hf. pose proof (CK_update _ _ _ _ _ _ Hok Hb Ha Hh) as Hi.
    rewrite Hf, list_insert_id in Hi; [done|]. by eapply CK_bucket.
  Qed.
  Lemma CK_len h bs : CK h bs → ht_len h = lengthN (concat bs).
  Proof. intros []. unfold ht_len. by rewrite (CH_size _ _ _ _ ho_heap), hcells_length. Qed.
  Lemma CK_capacity h bs : CK h bs → ht_capacity h = cap.
  Proof. intros []. by eapply CH_cap. Qed.
  Lemma CK_len_le h bs : CK h bs → lengthN (concat bs) ≤ cap.
  Proof. intros []. apply CH_len_le in ho_heap. by rewrite hcells_length in ho_heap. Qed.
  Lemma CK_NoDup h bs : CK h bs → NoDup (concat bs).*1.
  Proof. intros []. apply CH_NoDup in ho_heap. by rewrite hcells_fst in ho_heap. Qed.

  (** The abstract functions on the pairs of a list of buckets *)
  Lemma pairs_length bs : lengthN (pairs bs) = lengthN bs.
  Proof. unfold lengthN. by rewrite map_length. Qed.
  Lemma pairs_concat bs : concat (pairs bs) = (concat bs).*2.
  Proof. symmetry. apply (concat_map snd). Qed.
  Lemma pairs_index bs k : hb_index hash (pairs bs) k = bk hash bs k.
  Proof. unfold hb_index, bk. by rewrite pairs_length. Qed.
  Lemma pairs_chain bs k es : bs !! bk hash bs k = Some es → hb_chain hash (pairs bs) k = es.*2.
  Proof. intros Hb. unfold hb_chain. rewrite pairs_index. unfold lookup. etrans; [apply f_equal, (list_lookup_fmap (map snd) bs)|]. by rewrite Hb. Qed.
  Lemma pairs_put bs k es : hb_put hash (pairs bs) k es.*2 = pairs (<[bk hash bs k := es]> bs).
  Proof. unfold hb_put. rewrite pairs_index. symmetry. apply (list_fmap_insert (map snd)). Qed.

  (** Where the first equal key of a bucket is *)
  Definition nokey k es := Forall (λ e : N * (K * V), keq e.2.1 k = false) es.
  Lemma split_none k es : nokey k es → hb_split keq k es.*2 = None.
  Proof. induction 1 as [|e es He _ IH]; [done|]. rewrite fmap_cons. cbn [hb_split]. by rewrite He, IH. Qed.
  Lemma split_found k es1 i kv es2 : nokey k es1 → keq kv.1 k = true → hb_split keq k (es1 ++ (i, kv) :: es2).*2 = Some (es1.*2, kv, es2.*2).
  Proof.
    intros Hf Hk. induction Hf as [|e es1 He _ IH]; [simpl; by rewrite Hk|]. rewrite <- app_comm_cons, fmap_cons. cbn [hb_split].
    by rewrite He, IH.
  Qed.
  Inductive where_is bs k : Prop :=
  | at_first es1 i kv es2 : bs !! bk hash bs k = Some (es1 ++ (i, kv) :: es2) → keq kv.1 k = true → nokey k es1 → where_is bs k
  | nowhere es : bs !! bk hash bs k = Some es → nokey k es → where_is bs k.
  Lemma where_is_ok h bs k : CK h bs → where_is bs k.
  Proof.
    intros Hok. destruct (bk_chain _ _ _ _ _ k Hok) as [es Hb].
    assert (nokey k es ∨ ∃ es1 i kv es2, es = es1 ++ (i, kv) :: es2 ∧ keq kv.1 k = true ∧ nokey k es1) as [Hn|(es1 & i & kv & es2 & -> & ? & ?)].
    { clear. induction es as [|[i kv] es IH]; [by left; constructor|]. destruct (keq kv.1 k) eqn:E.
      - right. exists [], i, kv, es. split; [done|]. split; [done|]. constructor.
      - destruct IH as [?|(es1 & j & kv' & es2 & -> & ? & ?)]; [left; by constructor|].
        right. exists ((i, kv) :: es1), j, kv', es2. split; [done|]. split; [done|]. by constructor. }
    - by eapply nowhere.
    - by eapply at_first.
  Qed.
  Lemma get_first bs k es1 i kv es2 :
    bs !! bk hash bs k = Some (es1 ++ (i, kv) :: es2) → keq kv.1 k = true → nokey k es1 →
    hb_split keq k (hb_chain hash (pairs bs) k) = Some (es1.*2, kv, es2.*2).
  Proof. intros Hb Hk Hf. rewrite (pairs_chain _ _ _ Hb). by apply split_found. Qed.
  Lemma get_nowhere bs k es : bs !! bk hash bs k = Some es → nokey k es → hb_split keq k (hb_chain hash (pairs bs) k) = None.
  Proof. intros Hb Hf. rewrite (pairs_chain _ _ _ Hb). by apply split_none. Qed.

  (** ** Walking a chain *)
  Lemma walk_ok h bs b k es1 es2 fuel :
    CK h bs → bs !! b = Some (es1 ++ es2) → (length es2 < fuel)%nat →
    (∀ es3 i kv es4, es2 = es3 ++ (i, kv) :: es4 → keq kv.1 k = true → nokey k es3 →
      ht_get_addr_loop keq fuel h k (fst0 0 es2) = Val i) ∧
    (nokey k es2 → ht_get_addr_loop keq fuel h k (fst0 0 es2) = Val 0).
  Proof.
    intros Hok. revert es1 es2. induction fuel as [|fuel IH]; intros es1 es2 Hb Hf; [lia|].
    destruct es2 as [|[j kv'] es2].
    { split; [by intros [] ? ? ?|]. intros _. done. }
    destruct (ht_read _ _ _ _ _ _ _ _ _ _ Hok Hb) as (Hnz & Hn & Hnx & _).
    assert (ht_get_addr_loop keq (S fuel) h k (fst0 0 ((j, kv') :: es2)) =
      if keq kv'.1 k then Val j else ht_get_addr_loop keq fuel h k (fst0 0 es2)) as Heq.
    { simpl. rewrite decide_False by done. rewrite Hn. simpl. destruct (keq kv'.1 k); [done|]. by rewrite Hnx. }
    rewrite Heq. destruct (IH (es1 ++ [(j, kv')]) es2) as [IH1 IH2]; [by rewrite <- app_assoc|simpl in Hf; lia|]. split.
    - intros es3 i kv es4 He Hk Hfa. destruct es3 as [|[j' kv3] es3]; simpl in He; injection He as -> -> ->.
      + by rewrite Hk.
      + apply Forall_cons in Hfa as [Hx Hfa]. simpl in Hx. rewrite Hx. by eapply IH1.
    - intros [Hx Hfa]%Forall_cons. simpl in Hx. rewrite Hx. by apply IH2.
  Qed.
  Lemma look_first h bs k es1 i kv es2 :
    CK h bs → bs !! bk hash bs k = Some (es1 ++ (i, kv) :: es2) → keq kv.1 k = true → nokey k es1 →
    ht_bucket h (N.of_nat (bk hash bs k)) = Val (fst0 0 (es1 ++ (i, kv) :: es2)) ∧
    ht_get_addr_loop keq (ht_fuel h) h k (fst0 0 (es1 ++ (i, kv) :: es2)) = Val i.
  Proof.
    intros Hok Hb Hk Hf. split; [by apply (ht_bucket_ok _ _ _ _ _ _ _ Hok)|].
    pose proof (HOK_chain_len _ _ _ _ _ _ _ Hok Hb).
    eapply (walk_ok h bs _ k [] _ (ht_fuel h) Hok Hb); [unfold ht_fuel; lia|reflexivity|done|done].
  Qed.
  Lemma look_nowhere h bs k es :
    CK h bs → bs !! bk hash bs k = Some es → nokey k es →
    ht_bucket h (N.of_nat (bk hash bs k)) = Val (fst0 0 es) ∧ ht_get_addr_loop keq (ht_fuel h) h k (fst0 0 es) = Val 0.
  Proof.
    intros Hok Hb Hf. split; [by apply (ht_bucket_ok _ _ _ _ _ _ _ Hok)|].
    pose proof (HOK_chain_len _ _ _ _ _ _ _ Hok Hb).
    eapply (walk_ok h bs _ k [] _ (ht_fuel h) Hok Hb); [unfold ht_fuel; lia|done].
  Qed.

  (** ** The operations *)
  Lemma insert_first h bs k v es1 i kv es2 :
    CK h bs → bs !! bk hash bs k = Some (es1 ++ (i, kv) :: es2) → keq kv.1 k = true → nokey k es1 →
    wp (ht_insert keq hash k v) h (λ o h', o = Some i ∧ CK h' (<[bk hash bs k := es1 ++ (i, (kv.1, v)) :: es2]> bs)).
  Proof.
    intros Hok Hb Hk Hf. destruct (look_first _ _ _ _ _ _ _ Hok Hb Hk Hf) as [H1 H2].
    destruct (ht_read _ _ _ _ _ _ _ _ _ _ Hok Hb) as (Hnz & _ & _ & _).
    eapply wp_ext; [apply ht_insert_s_ok|]. unfold ht_insert_s. apply wp_bind. eapply wp_gets; [by eapply ht_bucket_index_ok|].
    apply wp_bind. eapply wp_gets; [exact H1|]. apply wp_bind. eapply wp_gets; [exact H2|].
    rewrite decide_True by done. apply wp_bind.
    eapply wp_set_node_value; [pose proof (ho_heap _ _ _ _ _ Hok) as Hh; by rewrite (hcells_focus' _ _ _ Hb) in Hh|].
    intros a' Ha'. apply wp_ret. split; [done|]. eapply CK_update'; [exact Hok|exact Hb|exact Ha'| |].
    - pose proof (ho_hash _ _ _ _ _ Hok _ _ Hb) as Hh. rewrite !Forall_app, !Forall_cons in *. tauto.
    - by rewrite !fst0_app.
  Qed.
  Lemma insert_nowhere h bs k v es :
    CK h bs → bs !! bk hash bs k = Some es → nokey k es → lengthN (concat bs) < cap →
    wp (ht_insert keq hash k v) h (λ o h', ∃ i, o = Some i ∧ CK h' (<[bk hash bs k := (i, (k, v)) :: es]> bs)).
  Proof.
    intros Hok Hb Hfa Hlt. pose proof (CK_len _ _ Hok) as Hlen. pose proof (CK_capacity _ _ Hok) as Hcap.
    destruct (look_nowhere _ _ _ _ Hok Hb Hfa) as [H1 H2].
    eapply wp_ext; [apply ht_insert_s_ok|]. unfold ht_insert_s. apply wp_bind. eapply wp_gets; [by eapply ht_bucket_index_ok|].
    apply wp_bind. eapply wp_gets; [exact H1|]. apply wp_bind. eapply wp_gets; [exact H2|].
    rewrite decide_False by (intros Hx; by apply Hx). unfold ht_insert_new_node. apply wp_bind, wp_mget. rewrite decide_False by lia.
    apply wp_bind, ht_on_wp. eapply CH_add_node; [exact _|exact (ho_heap _ _ _ _ _ Hok)| |].
    { by rewrite hcells_length. }
    intros i a Ha. apply wp_bind. unfold set_hal.
    eapply wp_set_bucket; [exact Hok|by eapply HOK_bk_len|by eapply lookup_lt_Some|].
    rewrite (hcells_focus' _ _ _ Hb) in Ha. simpl in Ha.
    assert (∀ a', CH 4 cap a' (hseg 0 ((i, (k, v)) :: es) 0 ++ hoth (bk hash bs k) bs) →
      CK (HT (<[bk hash bs k:=i]> (buckets h)) a') (<[bk hash bs k := (i, (k, v)) :: es]> bs)) as Hfin.
    { intros a' Ha'. apply (CK_update _ _ _ _ _ _ Hok Hb Ha').
      apply Forall_cons. split; [simpl; unfold bk; lia|]. by apply (ho_hash _ _ _ _ _ Hok). }
    destruct es as [|[j w] es]; simpl in *.
    - apply wp_bind, wp_ret, wp_ret. eexists. split; [done|]. by apply Hfin.
    - destruct (ht_read _ _ _ _ _ _ [] _ _ _ Hok Hb) as (Hnz & _). apply wp_bind. rewrite decide_True by done.
      apply ht_on_wp. simpl. eapply CH_connect; [exact Ha|done..|]. intros a' Ha'. apply wp_ret. eexists. split; [done|].
      by apply Hfin.
  Qed.
  Lemma insert_full h bs k v es :
    CK h bs → bs !! bk hash bs k = Some es → nokey k es → cap ≤ lengthN (concat bs) → ht_insert keq hash k v h = Ret None h.
  Proof.
    intros Hok Hb Hfa Hge. pose proof (CK_len _ _ Hok) as Hlen. pose proof (CK_capacity _ _ Hok) as Hcap.
    destruct (look_nowhere _ _ _ _ Hok Hb Hfa) as [H1 H2].
    rewrite ht_insert_s_ok. unfold ht_insert_s, mbind, M_bind, gets. rewrite (ht_bucket_index_ok _ _ _ _ _ _ Hok), H1, H2.
    rewrite decide_False by (intros Hx; by apply Hx). unfold ht_insert_new_node, mbind, M_bind, mget. rewrite decide_True by lia. done.
  Qed.

  Lemma first_not_head h bs b j w es1 i kv es2 : CK h bs → bs !! b = Some (((j, w) :: es1) ++ (i, kv) :: es2) → j ≠ i.
  Proof.
    intros Hok Hb ->. pose proof (CK_NoDup _ _ Hok) as Hnd. rewrite (concat_focus0' _ _ _ Hb) in Hnd. simpl in Hnd.
    apply NoDup_cons in Hnd as [Hni _]. apply Hni. apply elem_of_list_fmap. exists (i, kv). split; [done|]. rewrite !elem_of_app, elem_of_cons. tauto.
  Qed.
  Lemma remove_first h bs k es1 i kv es2 :
    CK h bs → bs !! bk hash bs k = Some (es1 ++ (i, kv) :: es2) → keq kv.1 k = true → nokey k es1 →
    wp (ht_remove keq hash k) h (λ o h', o = Some kv.2 ∧ CK h' (<[bk hash bs k := es1 ++ es2]> bs)).
  Proof.
    intros Hok Hb Hk Hf. destruct (look_first _ _ _ _ _ _ _ Hok Hb Hk Hf) as [H1 H2].
    destruct (ht_read _ _ _ _ _ _ _ _ _ _ Hok Hb) as (Hnz & Hn & Hnx & Hpv).
    eapply wp_ext; [apply ht_remove_s_ok|]. unfold ht_remove_s. apply wp_bind. eapply wp_gets; [by eapply ht_bucket_index_ok|].
    apply wp_bind. eapply wp_gets; [exact H1|]. apply wp_bind. eapply wp_gets; [exact H2|].
    rewrite decide_False by done. apply wp_bind. eapply wp_gets; [exact Hn|]. apply wp_bind. eapply wp_gets; [exact Hpv|].
    apply wp_bind. eapply wp_gets; [exact Hnx|].
    pose proof (ho_heap _ _ _ _ _ Hok) as Hh. rewrite (hcells_focus' _ _ _ Hb), hseg_app in Hh. simpl in Hh. rewrite <- app_assoc in Hh. simpl in Hh.
    eapply CH_perm in Hh; [|symmetry; apply Permutation_middle].
    apply wp_bind, ht_on_wp. eapply CH_clear_register; [exact Hh|done|]. intros a1 Ha1.
    apply wp_bind, ht_on_wp. simpl. eapply CH_clear_register; [exact Ha1|done|]. intros a2 Ha2. unfold setr, insertN in Ha2. simpl in Ha2.
    apply wp_bind, ht_on_wp. simpl. eapply CH_remove_node; [exact _|exact Ha2|]. intros a3 Ha3. simpl. unfold set_hal. simpl.
    assert (∀ a', CH 4 cap a' (hseg 0 (es1 ++ es2) 0 ++ hoth (bk hash bs k) bs) →
      CK (HT (<[bk hash bs k:=fst0 0 (es1 ++ es2)]> (buckets h)) a') (<[bk hash bs k := es1 ++ es2]> bs)) as Hfin.
    { intros a' Ha'. apply (CK_update _ _ _ _ _ _ Hok Hb Ha').
      pose proof (ho_hash _ _ _ _ _ Hok _ _ Hb) as Hx. rewrite !Forall_app, !Forall_cons in *. tauto. }
    destruct es1 as [|[j w] es1].
    - cbn [app fst0 lst0 hseg] in *. apply wp_bind. rewrite decide_True by done. apply wp_bind, wp_massert; [done|].
      eapply wp_set_bucket; [exact Hok|by eapply HOK_bk_len|by eapply lookup_lt_Some|].
      apply wp_bind, ht_on_wp. simpl. eapply (wp_unlink _ _ [] i); [exact Ha3|]. intros a4 Ha4. apply wp_ret. split; [done|].
      by apply Hfin.
    - pose proof (first_not_head _ _ _ _ _ _ _ _ _ Hok Hb) as Hji.
      apply wp_bind. rewrite decide_False by done. apply wp_ret. apply wp_bind, ht_on_wp. simpl.
      eapply (wp_unlink _ _ ((j, w) :: es1) i); [exact Ha3|]. intros a4 Ha4. apply wp_ret. split; [done|].
      specialize (Hfin a4 Ha4). simpl in Hfin. rewrite list_insert_id in Hfin; [done|]. by apply (CK_bucket _ _ _ _ Hok Hb).
  Qed.
  Lemma remove_nowhere h bs k es : CK h bs → bs !! bk hash bs k = Some es → nokey k es → ht_remove keq hash k h = Ret None h.
  Proof.
    intros Hok Hb Hfa. destruct (look_nowhere _ _ _ _ Hok Hb Hfa) as [H1 H2].
    rewrite ht_remove_s_ok. unfold ht_remove_s, mbind, M_bind, gets. rewrite (ht_bucket_index_ok _ _ _ _ _ _ Hok), H1, H2. done.
  Qed.

  Lemma get_mut_first h bs k f es1 i kv es2 :
    CK h bs → bs !! bk hash bs k = Some (es1 ++ (i, kv) :: es2) → keq kv.1 k = true → nokey k es1 →
    wp (ht_get_mut keq hash k f) h (λ o h', o = Some kv.2 ∧ CK h' (<[bk hash bs k := (i, (kv.1, f kv.2)) :: es1 ++ es2]> bs)).
  Proof.
    intros Hok Hb Hk Hf. destruct (look_first _ _ _ _ _ _ _ Hok Hb Hk Hf) as [H1 H2].
    destruct (ht_read _ _ _ _ _ _ _ _ _ _ Hok Hb) as (Hnz & Hn & Hnx & Hpv).
    eapply wp_ext; [apply ht_get_mut_s_ok|]. unfold ht_get_mut_s. apply wp_bind. eapply wp_gets; [by eapply ht_bucket_index_ok|].
    apply wp_bind. eapply wp_gets; [exact H1|]. apply wp_bind. eapply wp_gets; [exact H2|].
    rewrite decide_False by done. apply wp_bind. eapply wp_gets; [exact Hpv|]. apply wp_bind. eapply wp_gets; [exact Hnx|].
    assert (∀ a', CH 4 cap a' (hseg 0 ((i, kv) :: es1 ++ es2) 0 ++ hoth (bk hash bs k) bs) →
      wp (ht_set_bucket (N.of_nat (bk hash bs k)) i;; n ← gets (λ h, ht_get_node h i); ht_set_node_value i (f n.2);; mret (Some n.2))
        (HT (buckets h) a') (λ o h', o = Some kv.2 ∧ CK h' (<[bk hash bs k := (i, (kv.1, f kv.2)) :: es1 ++ es2]> bs))) as Hrest.
    { intros a' Ha'. apply wp_bind. eapply wp_set_bucket; [exact Hok|by eapply HOK_bk_len|by eapply lookup_lt_Some|].
      apply wp_bind. eapply wp_gets.
      { unfold ht_get_node. simpl. erewrite CH_get; [|exact Ha'|simpl; mem]. reflexivity. }
      apply wp_bind. simpl. eapply (wp_set_node_value _ _ bs (bk hash bs k) [] i kv (es1 ++ es2)); [exact Ha'|].
      intros a2 Ha2. apply wp_ret. split; [done|]. unfold set_hal. simpl.
      apply (CK_update _ _ _ _ _ _ Hok Hb Ha2).
      pose proof (ho_hash _ _ _ _ _ Hok _ _ Hb) as Hh. simpl. rewrite Forall_cons, !Forall_app, !Forall_cons in *. tauto. }
    pose proof (ho_heap _ _ _ _ _ Hok) as Hh. rewrite (hcells_focus' _ _ _ Hb) in Hh.
    destruct es1 as [|[j w] es1].
    - simpl in *. apply wp_bind. rewrite decide_False by (intros Hx; by apply Hx). apply wp_ret. destruct h. by apply Hrest.
    - pose proof (first_not_head _ _ _ _ _ _ _ _ _ Hok Hb) as Hji.
      apply wp_bind. rewrite decide_True by (simpl; done).
      rewrite hseg_app in Hh. simpl in Hh. rewrite <- app_assoc in Hh. simpl in Hh.
      eapply CH_perm in Hh; [|rewrite app_comm_cons; symmetry; apply Permutation_middle].
      apply wp_bind, ht_on_wp. eapply CH_clear_register; [exact Hh|done|]. intros a1 Ha1. unfold setr, insertN in Ha1. simpl in Ha1.
      apply wp_bind, ht_on_wp. simpl.
      eapply (wp_unlink _ _ ((j, w) :: es1) i _ ((i, Node [SENTINEL; fst0 0 es2; 0; 0] kv) :: hoth (bk hash bs k) bs)).
      { eapply CH_perm; [exact Ha1|]. simpl. generalize (hseg j es1 i) (hseg i es2 0) (hoth (bk hash bs k) bs). intros. solve_Permutation. }
      intros a2 Ha2. apply ht_on_wp. simpl in *.
      eapply CH_connect with (cs := hseg j (es1 ++ es2) 0 ++ hoth (bk hash bs k) bs) (n := Node [SENTINEL; fst0 0 es2; 0; 0] kv)
        (m := Node [0; fst0 0 (es1 ++ es2); 0; 0] w);
        [eapply CH_perm; [exact Ha2|generalize (hseg j (es1 ++ es2) 0) (hoth (bk hash bs k) bs); intros; solve_Permutation]|done|done|].
      intros a3 Ha3. apply Hrest. exact Ha3.
  Qed.
  Lemma get_mut_nowhere h bs k f es : CK h bs → bs !! bk hash bs k = Some es → nokey k es → ht_get_mut keq hash k f h = Ret None h.
  Proof.
    intros Hok Hb Hfa. destruct (look_nowhere _ _ _ _ Hok Hb Hfa) as [H1 H2].
    rewrite ht_get_mut_s_ok. unfold ht_get_mut_s, mbind, M_bind, gets. rewrite (ht_bucket_index_ok _ _ _ _ _ _ Hok), H1, H2. done.
  Qed.

  Lemma CK_lookups h bs k :
    CK h bs → let o := hb_get keq hash (pairs bs) k in
    ht_get keq hash h k = Val o ∧ ht_contains_trait keq hash h k = Val (is_found o) ∧ ht_contains keq hash h k = Val (is_found o) ∧
    ht_index keq hash h k = match o with Some v => Val v | None => Err Panic end.
  Proof.
    intros Hok. unfold hb_get. destruct (where_is_ok h bs k Hok) as [es1 i kv es2 Hb Hk Hf|es Hb Hf].
    - rewrite (get_first _ _ _ _ _ _ Hb Hk Hf). simpl. destruct (look_first _ _ _ _ _ _ _ Hok Hb Hk Hf) as [H1 H2].
      destruct (ht_read _ _ _ _ _ _ _ _ _ _ Hok Hb) as (Hnz & Hn & _ & _).
      assert (ht_get keq hash h k = Val (Some kv.2)) as Hg.
      { rewrite ht_get_s_ok. unfold ht_get_s. rewrite (ht_bucket_index_ok _ _ _ _ _ _ Hok). unfold mbind, res_bind. rewrite H1, H2. rewrite decide_False by done.
        by rewrite Hn. }
      split_and!; [done| | |].
      + unfold ht_contains_trait. by rewrite Hg.
      + rewrite ht_contains_s_ok. unfold ht_contains_s. rewrite (ht_bucket_index_ok _ _ _ _ _ _ Hok). unfold mbind, res_bind. rewrite H1, H2. by rewrite decide_False by done.
      + unfold ht_index. by rewrite Hg.
    - rewrite (get_nowhere _ _ _ Hb Hf). simpl. destruct (look_nowhere _ _ _ _ Hok Hb Hf) as [H1 H2].
      assert (ht_get keq hash h k = Val None) as Hg.
      { rewrite ht_get_s_ok. unfold ht_get_s. rewrite (ht_bucket_index_ok _ _ _ _ _ _ Hok). unfold mbind, res_bind. by rewrite H1, H2. }
      split_and!; [done| | |].
      + unfold ht_contains_trait. by rewrite Hg.
      + rewrite ht_contains_s_ok. unfold ht_contains_s. rewrite (ht_bucket_index_ok _ _ _ _ _ _ Hok). unfold mbind, res_bind. by rewrite H1, H2.
      + unfold ht_index. by rewrite Hg.
  Qed.

  (** ** Iteration *)
  Lemma iterate_mut_order h bs script (Q : list (option (N * (K * V))) → htable K V → Prop) :
    CK h bs →
    (∀ h' bs', CK h' bs' → map length bs' = map length bs → concat bs' = (fw_mut_spec hupd script (concat bs)).2 →
      Q (fw_mut_spec hupd script (concat bs)).1 h') →
    wp (ht_iterate_mut script) h Q.
  Proof.
    intros Hok HQ. destruct bs as [|es0 bs0] eqn:Ebs; [by destruct Hok|]. rewrite <- Ebs in *.
    assert (ht_mk_iter h = Val (HtIter 0 (fst0 0 es0))) as Hmk.
    { pose proof (ht_bucket_ok _ _ _ _ _ 0 es0 Hok) as Hx. unfold ht_mk_iter. simpl in Hx. rewrite Hx; [done|]. by rewrite Ebs. }
    set (J := λ (s' : htable K V * ht_iter) P' l', ∃ bs', CK s'.1 bs' ∧ map length bs' = map length bs ∧ IInv bs' s'.2 P' l').
    assert (wp (drive_mut ht_iter_mut_next ht_iter_mut_next_back script) (h, HtIter 0 (fst0 0 es0))
      (λ o s', o = (fw_mut_spec hupd script (concat bs)).1 ∧
        ∃ P' l', J s' P' l' ∧ P' ++ l' = [] ++ (fw_mut_spec hupd script (concat bs)).2)) as Hw.
    { apply (drive_mut_fw_ok _ _ _ J); [| |done|]; clear Q HQ Hmk.
      - intros [h1 it] P f (bs1 & Hok1 & Hls & Hinv). simpl in *. unfold ht_iter_mut_next. apply wp_bind, wp_mget.
        destruct (ht_skip_inv _ _ _ h1 bs1 it P _ Hok1 Hinv) as [(_ & Hlt & it' & Hs & Hi')|[[_ Hlt]|(i & kv & l' & b & bs3 & es1 & es2 & bs2 & He & _)]]; [..|done].
        + rewrite decide_True by done. apply wp_bind. eapply wp_lift; [exact Hs|]. apply wp_bind, wp_modify, wp_ret. simpl. split; [done|].
          by exists bs1.
        + rewrite decide_False by done. apply wp_ret. split; [done|]. by exists bs1.
      - intros [h1 it] P x l f (bs1 & Hok1 & Hls & Hinv). simpl in *. unfold ht_iter_mut_next. apply wp_bind, wp_mget.
        destruct (ht_skip_inv _ _ _ h1 bs1 it P _ Hok1 Hinv) as [(Hl & _)|[[Hl _]|(i & kv & l' & b & bs3 & es1 & es2 & bs2 & [= -> ->] & Hlt & Hs & Hbs & -> & HP & Hl')]];
          [done|done|].
        assert (bs1 !! length bs3 = Some (es1 ++ (i, kv) :: es2)) as Hlk.
        { rewrite Hbs, lookup_app_r by lia. by rewrite Nat.sub_diag. }
        destruct (ht_read _ _ _ h1 bs1 (length bs3) es1 i kv es2 Hok1 Hlk) as (_ & Hn & Hnx & _).
        rewrite decide_True by done. apply wp_bind. eapply wp_lift; [exact Hs|]. apply wp_bind. eapply wp_lift; [exact Hnx|].
        apply wp_bind, wp_modify. apply wp_bind, wp_zoom. simpl. apply ht_on_wp.
        pose proof (ho_heap _ _ _ _ _ Hok1) as Hh. rewrite (hcells_focus' _ _ _ Hlk), hseg_app in Hh. simpl in Hh. rewrite <- app_assoc in Hh. simpl in Hh.
        eapply CH_perm in Hh; [|symmetry; apply Permutation_middle].
        eapply CH_raw_update; [exact _|exact Hh|]. intros a' Ha'. apply wp_ret. simpl. split; [done|].
        set (es' := es1 ++ hupd f (i, kv) :: es2).
        assert (CK (set_hal a' h1) (<[length bs3:=es']> bs1)) as Hok2.
        { eapply (CK_update' _ _ _ _ es'); [exact Hok1|exact Hlk| | |].
          - eapply CH_perm; [exact Ha'|]. unfold es'. rewrite hseg_app. simpl. rewrite <- app_assoc. apply Permutation_middle.
          - pose proof (ho_hash _ _ _ _ _ Hok1 _ _ Hlk) as Hx. unfold es'. rewrite !Forall_app, !Forall_cons in *. tauto.
          - unfold es'. simpl. by rewrite !fst0_app. }
        exists (<[length bs3:=es']> bs1). split; [done|]. split.
        { rewrite <- Hls. etrans; [apply (list_fmap_insert length)|]. apply list_insert_id.
          etrans; [apply (list_lookup_fmap length bs1)|]. rewrite Hlk. simpl. unfold es'. by rewrite !app_length. }
        right. exists bs3, (es1 ++ [hupd f (i, kv)]), es2, bs2. split_and!; [|done|by rewrite HP, <- app_assoc|done].
        rewrite Hbs, list_insert_mid. unfold es'. by rewrite <- app_assoc.
      - exists bs. split; [done|]. split; [done|]. right. exists [], [], es0, bs0. by rewrite Ebs. }
    unfold ht_iterate_mut, wp in *. rewrite Hmk. destruct (drive_mut _ _ _ _) as [o [h' it']|e [h' it']]; [|done].
    destruct Hw as (-> & P' & l' & (bs' & Hok' & Hls & Hinv) & He). simpl in *. apply (HQ h' bs'); [done|done|].
    by rewrite (IInv_concat _ _ _ _ Hinv).
  Qed.

  Lemma nexts_fw n (l : list (K * V)) : fw_spec (replicate n Fwd) l = nexts n l.
  Proof.
    revert l. induction n as [|n IH]; intros l; [done|]. unfold nexts in *. cbn [replicate fw_spec seq map]. rewrite <- seq_shift, map_map.
    destruct l as [|x l]; rewrite IH; f_equal; apply map_ext; intros i; by rewrite ?lookup_nil.
  Qed.
  Lemma chain_apply_fw fs (l : list (N * (K * V))) : (fw_mut_spec hupd (map (λ f, (Fwd, f)) fs) l).2.*2 = chain_apply fs l.*2.
  Proof.
    revert l. induction fs as [|f fs IH]; intros l; [by destruct l|]. cbn [map fw_mut_spec]. destruct l as [|x l].
    - specialize (IH []). destruct (fw_mut_spec _ _ []). simpl in *. rewrite IH. by destruct fs.
    - specialize (IH l). destruct (fw_mut_spec _ _ l). simpl in *. f_equal. exact IH.
  Qed.
  Lemma chain_apply_length fs (c : list (K * V)) : length (chain_apply fs c) = length c.
  Proof. revert c. induction fs as [|f fs IH]; intros [|x c]; simpl; [done..|]. by rewrite IH. Qed.
  Lemma chain_apply_nil (c : list (K * V)) : chain_apply [] c = c.
  Proof. by destruct c. Qed.
  Lemma chain_apply_app fs (c1 c2 : list (K * V)) : chain_apply fs (c1 ++ c2) = chain_apply fs c1 ++ chain_apply (drop (length c1) fs) c2.
  Proof.
    revert fs. induction c1 as [|x c1 IH]; intros fs; [destruct fs; by rewrite ?drop_0|]. destruct fs as [|f fs].
    - by rewrite drop_nil, !chain_apply_nil.
    - simpl. by rewrite IH.
  Qed.
  Lemma table_apply_concat fs (T : list (list (K * V))) : concat (table_apply fs T) = chain_apply fs (concat T).
  Proof.
    revert fs. induction T as [|c T IH]; intros fs; simpl; [by destruct fs|]. by rewrite IH, chain_apply_app.
  Qed.
  Lemma table_apply_lengths fs (T : list (list (K * V))) : map length (table_apply fs T) = map length T.
  Proof. revert fs. induction T as [|c T IH]; intros fs; simpl; [done|]. by rewrite IH, chain_apply_length. Qed.
  Lemma concat_lengths {A} (T U : list (list A)) : map length T = map length U → concat T = concat U → T = U.
  Proof.
    revert U. induction T as [|c T IH]; intros [|d U]; simpl; [done..|]. intros [= Hl Hls] He.
    apply app_inj_1 in He as [-> He]; [|done]. f_equal. by apply IH.
  Qed.

  (** ** Histories *)
  Notation step := (ht_step keq hash).
  Notation spec := (hb_spec keq hash cap).
  Lemma concat_pairs_len bs : lengthN (concat (pairs bs)) = lengthN (concat bs).
  Proof. rewrite pairs_concat. unfold lengthN. by rewrite fmap_length. Qed.
  Lemma order_step_ok o h bs :
    CK h bs → ∃ bs', CK (call (step o) h).2 bs' ∧ spec o (pairs bs) = ((call (step o) h).1, pairs bs').
  Proof.
    intros Hok. pose proof (CK_len _ _ Hok) as Hlen. pose proof (CK_len_le _ _ Hok) as Hle.
    destruct o as [k v|k|k|k f|k|k| | | |k|k f|n|fs]; simpl ht_step; cbn [hb_spec].
    - unfold hb_insert. destruct (where_is_ok h bs k Hok) as [es1 i kv es2 Hb Hk Hf|es Hb Hf].
      + rewrite (get_first _ _ _ _ _ _ Hb Hk Hf).
        destruct (wp_elim _ _ _ (insert_first _ _ k v _ _ _ _ Hok Hb Hk Hf)) as (o & h' & He & -> & Hok').
        unfold call, mbind, M_bind. rewrite He. simpl. eexists. split; [exact Hok'|]. f_equal. rewrite <- pairs_put, fmap_app. done.
      + rewrite (get_nowhere _ _ _ Hb Hf). rewrite concat_pairs_len. destruct (decide (lengthN (concat bs) < cap)) as [Hlt|Hge].
        * destruct (wp_elim _ _ _ (insert_nowhere _ _ k v _ Hok Hb Hf Hlt)) as (o & h' & He & i & -> & Hok').
          unfold call, mbind, M_bind. rewrite He. simpl. eexists. split; [exact Hok'|]. f_equal.
          rewrite <- pairs_put. by rewrite (pairs_chain _ _ _ Hb).
        * unfold call, mbind, M_bind. rewrite (insert_full _ _ k v _ Hok Hb Hf) by lia. simpl. by exists bs.
    - unfold hb_get, hb_remove. destruct (where_is_ok h bs k Hok) as [es1 i kv es2 Hb Hk Hf|es Hb Hf].
      + rewrite (get_first _ _ _ _ _ _ Hb Hk Hf).
        destruct (wp_elim _ _ _ (remove_first _ _ k _ _ _ _ Hok Hb Hk Hf)) as (o & h' & He & -> & Hok').
        unfold call, mbind, M_bind. rewrite He. simpl. eexists. split; [exact Hok'|]. f_equal. by rewrite <- pairs_put, fmap_app.
      + rewrite (get_nowhere _ _ _ Hb Hf). unfold call, mbind, M_bind. rewrite (remove_nowhere _ _ k _ Hok Hb Hf). simpl. by exists bs.
    - destruct (CK_lookups _ _ k Hok) as (Hg & _). unfold call, mbind, M_bind, gets. rewrite Hg. simpl. by exists bs.
    - unfold hb_get, hb_get_mut. destruct (where_is_ok h bs k Hok) as [es1 i kv es2 Hb Hk Hf|es Hb Hf].
      + rewrite (get_first _ _ _ _ _ _ Hb Hk Hf).
        destruct (wp_elim _ _ _ (get_mut_first _ _ k f _ _ _ _ Hok Hb Hk Hf)) as (o & h' & He & -> & Hok').
        unfold call, mbind, M_bind. rewrite He. simpl. eexists. split; [exact Hok'|]. f_equal. by rewrite <- pairs_put, fmap_cons, fmap_app.
      + rewrite (get_nowhere _ _ _ Hb Hf). unfold call, mbind, M_bind. rewrite (get_mut_nowhere _ _ k f _ Hok Hb Hf). simpl. by exists bs.
    - destruct (CK_lookups _ _ k Hok) as (_ & Hg & _). unfold call, mbind, M_bind, gets. rewrite Hg. simpl. by exists bs.
    - destruct (CK_lookups _ _ k Hok) as (_ & _ & Hg & _). unfold call, mbind, M_bind, gets. rewrite Hg. simpl. by exists bs.
    - exists bs. unfold call, mbind, M_bind, mget, mret, M_ret. cbn [fst snd]. by rewrite Hlen, concat_pairs_len.
    - exists bs. unfold call, mbind, M_bind, mget, mret, M_ret. cbn [fst snd]. rewrite Hlen, pairs_concat. split; [done|]. do 3 f_equal.
      by destruct (concat bs).
    - exists bs. unfold call, mbind, M_bind, mget, mret, M_ret. cbn [fst snd]. by rewrite (CK_capacity _ _ Hok).
    - destruct (CK_lookups _ _ k Hok) as (_ & _ & _ & Hg). unfold call, mbind, M_bind, gets. rewrite Hg. exists bs.
      destruct (hb_get keq hash (pairs bs) k); done.
    - unfold hb_get, hb_get_mut. destruct (where_is_ok h bs k Hok) as [es1 i kv es2 Hb Hk Hf|es Hb Hf].
      + rewrite (get_first _ _ _ _ _ _ Hb Hk Hf).
        destruct (wp_elim _ _ _ (get_mut_first _ _ k f _ _ _ _ Hok Hb Hk Hf)) as (o & h' & He & -> & Hok').
        unfold call, ht_index_mut, mbind, M_bind. rewrite He. simpl. eexists. split; [exact Hok'|]. f_equal. by rewrite <- pairs_put, fmap_cons, fmap_app.
      + rewrite (get_nowhere _ _ _ Hb Hf). unfold call, ht_index_mut, mbind, M_bind. rewrite (get_mut_nowhere _ _ k f _ Hok Hb Hf). simpl. by exists bs.
    - exists bs. unfold call, mbind, M_bind, gets. rewrite (ht_iterate_ok _ _ _ _ _ _ Hok). simpl.
      rewrite nexts_fw, pairs_concat. done.
    - assert (wp (ht_iterate_mut (map (λ f, (Fwd, f)) fs)) h (λ o h', o = (fw_mut_spec hupd (map (λ f, (Fwd, f)) fs) (concat bs)).1 ∧
        ∃ bs', CK h' bs' ∧ map length bs' = map length bs ∧ concat bs' = (fw_mut_spec hupd (map (λ f, (Fwd, f)) fs) (concat bs)).2)) as Hw.
      { eapply iterate_mut_order; [exact Hok|]. intros h' bs' Hok' Hls He. split; [done|]. by exists bs'. }
      destruct (wp_elim _ _ _ Hw) as (o & h' & He & -> & bs' & Hok' & Hls & Hc).
      unfold call, mbind, M_bind. rewrite He. simpl. exists bs'. split; [done|]. f_equal.
      + do 2 f_equal. rewrite fw_mut_spec_out. unfold no_index. rewrite fw_spec_map. rewrite pairs_concat, <- nexts_fw. f_equal.
        clear. induction fs as [|f fs IH]; simpl; [done|]. by f_equal.
      + apply concat_lengths.
        * rewrite table_apply_lengths, !map_map. etrans; [|etrans; [symmetry; exact Hls|]]; apply map_ext; intros; by rewrite map_length.
        * rewrite table_apply_concat, !pairs_concat, Hc. by rewrite chain_apply_fw.
  Qed.
  Lemma order_history_ok ops h bs :
    CK h bs → ∃ bs', CK (history step ops h).2 bs' ∧ spec_history spec ops (pairs bs) = ((history step ops h).1, pairs bs').
  Proof.
    revert h bs. induction ops as [|o ops IH]; intros h bs Hok; [by exists bs|].
    destruct (order_step_ok o h bs Hok) as (bs1 & Hok1 & Hs). cbn [history spec_history]. rewrite Hs.
    destruct (call (step o) h) as [r h1]. cbn [fst snd] in *.
    destruct (IH h1 bs1 Hok1) as (bs2 & Hok2 & ->). destruct (history step ops h1) as [rs h2]. cbn [fst snd] in *. by exists bs2.
  Qed.
  Lemma CK_new nb ms d h0 : ht_new nb ms d = Some h0 → (0 < nb)%nat → N.of_nat ms + 1 < W32 → cap = N.of_nat ms → CK h0 (replicate nb []).
  Proof.
    intros Hnew Hnb Hw ->. unfold ht_new in Hnew. case_decide; [|done]. injection Hnew as <-.
    assert (concat (replicate nb (@nil (N * (K * V)))) = []) as Hc by (clear; induction nb; simpl; done).
    constructor; simpl.
    - assert (hcells (replicate nb (@nil (N * (K * V)))) = []) as ->.
      { unfold hcells. clear. induction nb; simpl; done. }
      apply CH_new; [done|done|lia].
    - clear. induction nb as [|n IH]; simpl; [done|]. by rewrite IH.
    - destruct nb; [lia|done].
    - intros b es [-> _]%lookup_replicate. constructor.
    - apply dk_never.
  Qed.
End order.

Section facts.
  Context `{Profile} {K V : Type} (keq : K → K → bool) (hash : K → N) (nb ms : nat) (d : K * V).
  Context (h0 : htable K V) (Hnew : ht_new nb ms d = Some h0) (Hnb : (0 < nb)%nat) (Hw : N.of_nat ms + 1 < W32).
  Lemma pairs_replicate n : map (map snd) (replicate n (@nil (N * (K * V)))) = replicate n [].
  Proof. induction n as [|n IH]; simpl; [done|]. by rewrite IH. Qed.
  Lemma order_fact o :
    ∃ bs, HOK (λ _ _ : K, false) hash (N.of_nat ms) (history (ht_step keq hash) o h0).2 bs ∧
      spec_history (hb_spec keq hash (N.of_nat ms)) o (replicate nb []) = ((history (ht_step keq hash) o h0).1, map (map snd) bs).
  Proof using Hnew Hnb Hw.
    rewrite <- pairs_replicate. apply order_history_ok. by eapply CK_new.
  Qed.
  Lemma order_answers_fact o :
    (history (ht_step keq hash) o h0).1 = (spec_history (hb_spec keq hash (N.of_nat ms)) o (replicate nb [])).1.
  Proof using Hnew Hnb Hw. destruct (order_fact o) as (bs & _ & ->). done. Qed.
  Lemma order_iter_fact o script :
    ht_iterate (history (ht_step keq hash) o h0).2 script =
      Val (fw_spec script (concat (spec_history (hb_spec keq hash (N.of_nat ms)) o (replicate nb [])).2)).
  Proof using Hnew Hnb Hw. destruct (order_fact o) as (bs & Hok & ->). simpl. rewrite pairs_concat. by apply (ht_iterate_ok _ _ _ _ _ _ Hok). Qed.
End facts.
