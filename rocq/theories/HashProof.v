(** * Proofs about the HashTable: the chains and the operations on them *)
From Verif Require Export SearchProof HashApi DequeProof.

Section concat.
  Context {A B : Type} (f : list A → list B).
  Lemma concat_focus (bs : list (list A)) b x :
    (b < length bs)%nat → f [] = [] → concat (map f (<[b:=x]> bs)) ≡ₚ f x ++ concat (map f (<[b:=[]]> bs)).
  Proof.
    intros Hb H0. revert b Hb. induction bs as [|es bs IH]; intros b Hb; simpl in *; [lia|].
    destruct b as [|b]; simpl; [by rewrite H0|]. rewrite IH by lia. rewrite !app_assoc. f_equiv. apply Permutation_app_comm.
  Qed.
End concat.

Section Ht.
  Context `{Profile} {K V : Type} (keq : K → K → bool) (hash : K → N) (HL : HashLaws keq hash) {G : Ghost (K * V)} `{GA : !GAdd G} `{GR : !GRem G} (cap : N).
  Implicit Types h : htable K V.
  Implicit Types es : list (N * (K * V)).
  Implicit Types bs : list (list (N * (K * V))).

  (** ** Lists of pairs with distinct keys *)
  Lemma dk_perm (l l' : list (K * V)) : l ≡ₚ l' → distinct_keys keq l → distinct_keys keq l'.
  Proof using HL.
    intros Hp. unfold distinct_keys. induction Hp as [|x l l' Hp IH|x y l|l1 l2 l3 H1 IH1 H2 IH2]; [done| | |by auto].
    - intros Hx. inversion Hx; subst. constructor; [|by apply IH]. by rewrite <- Hp.
    - intros Hx. inversion Hx as [|? ? H1 H2]; subst. inversion H2 as [|? ? H3 H4]; subst. apply Forall_cons in H1 as [H1 H1'].
      constructor; [apply Forall_cons; split; [by rewrite (keq_sym _ _ HL)|done]|]. by constructor.
  Qed.
  Lemma dk_cons (x : K * V) l : distinct_keys keq (x :: l) ↔ Forall (λ y, keq y.1 x.1 = false) l ∧ distinct_keys keq l.
  Proof using HL.
    split.
    - intros Hx. inversion Hx; subst. split; [|done]. eapply Forall_impl; [done|]. intros y. simpl. by rewrite (keq_sym _ _ HL).
    - intros [H1 H2]. constructor; [|done]. eapply Forall_impl; [done|]. intros y. simpl. by rewrite (keq_sym _ _ HL).
  Qed.
  Lemma hm_find_None k (l : list (K * V)) : hm_find keq k l = None ↔ Forall (λ x, keq x.1 k = false) l.
  Proof.
    induction l as [|x l IH]; simpl; [done|]. rewrite Forall_cons. destruct (keq x.1 k) eqn:E; [|rewrite IH; tauto].
    split; [done|]. by intros [? _].
  Qed.
  Lemma hm_find_head k (x : K * V) R : keq x.1 k = true → hm_find keq k (x :: R) = Some x.
  Proof. intros He. simpl. by rewrite He. Qed.
  Lemma hm_find_Some k (l : list (K * V)) x : hm_find keq k l = Some x → keq x.1 k = true ∧ ∃ R, l ≡ₚ x :: R.
  Proof.
    induction l as [|y l IH]; simpl; [done|]. destruct (keq y.1 k) eqn:E.
    - intros [= ->]. eauto.
    - intros [? (R & HR)]%IH. split; [done|]. exists (y :: R). rewrite HR. by rewrite Permutation_swap.
  Qed.
  Lemma hm_find_in k (l : list (K * V)) x : distinct_keys keq l → x ∈ l → keq x.1 k = true → hm_find keq k l = Some x.
  Proof using HL.
    induction l as [|y l IH]; [by intros _ ?%elem_of_nil|]. intros [Hf Hd]%dk_cons [<-|Hin]%elem_of_cons He; simpl; [by rewrite He|].
    destruct (keq y.1 k) eqn:E; [|by apply IH]. exfalso. rewrite Forall_forall in Hf. specialize (Hf x Hin).
    assert (keq x.1 y.1 = true); [|congruence]. eapply (keq_trans _ _ HL); [exact He|]. by rewrite (keq_sym _ _ HL).
  Qed.
  Lemma hm_find_perm k (l l' : list (K * V)) : distinct_keys keq l → l ≡ₚ l' → hm_find keq k l' = hm_find keq k l.
  Proof using HL.
    intros Hd Hp. destruct (hm_find keq k l) as [x|] eqn:E.
    - apply hm_find_Some in E as (He & R & Hx). apply hm_find_in; [by eapply dk_perm| |done]. rewrite <- Hp, Hx. mem.
    - apply hm_find_None. rewrite <- Hp. by apply hm_find_None.
  Qed.
  Lemma keq_false_trans a b k : keq a k = true → keq b k = true → keq a b = false → False.
  Proof using HL.
    intros H1 H2 H3. assert (keq a b = true); [|congruence]. eapply (keq_trans _ _ HL); [exact H1|]. by rewrite (keq_sym _ _ HL).
  Qed.

  (** ** Chains *)
  (** The nodes of a chain with predecessor [p] and successor [nx] *)
  Fixpoint hseg (p : N) es (nx : N) : list (N * node (K * V)) :=
    match es with
    | [] => []
    | (i, kv) :: es => (i, Node [p; fst0 nx es; 0; 0] kv) :: hseg i es nx
    end.
  Definition hcells bs : list (N * node (K * V)) := concat (map (λ es, hseg 0 es 0) bs).
  Lemma hseg_app p es1 es2 nx : hseg p (es1 ++ es2) nx = hseg p es1 (fst0 nx es2) ++ hseg (lst0 p es1) es2 nx.
  Proof. revert p. induction es1 as [|[i v] es1 IH]; intros p; simpl; [done|]. rewrite IH, fst0_app. done. Qed.
  Lemma hseg_fst p es nx : (hseg p es nx).*1 = es.*1.
  Proof. revert p. induction es as [|[i v] es IH]; intros p; simpl; [done|]. by rewrite IH. Qed.
  Lemma hcells_fst bs : (hcells bs).*1 = (concat bs).*1.
  Proof. unfold hcells. induction bs as [|es bs IH]; simpl; [done|]. by rewrite !fmap_app, hseg_fst, IH. Qed.
  Lemma hcells_length bs : lengthN (hcells bs) = lengthN (concat bs).
  Proof. unfold lengthN. f_equal. rewrite <- (fmap_length fst (hcells bs)), hcells_fst. by rewrite fmap_length. Qed.

  (** The other chains *)
  Definition hoth (b : nat) bs := hcells (<[b:=[]]> bs).
  Lemma hcells_focus bs b es : (b < length bs)%nat → hcells (<[b:=es]> bs) ≡ₚ hseg 0 es 0 ++ hoth b bs.
  Proof. intros Hb. unfold hoth, hcells. by apply (concat_focus (λ es, hseg 0 es 0)). Qed.
  Lemma hcells_focus' bs b es : bs !! b = Some es → hcells bs ≡ₚ hseg 0 es 0 ++ hoth b bs.
  Proof. intros Hb. rewrite <- (list_insert_id bs b es Hb) at 1. apply hcells_focus. by eapply lookup_lt_Some. Qed.
  Lemma concat_focus0 bs b es : (b < length bs)%nat → concat (<[b:=es]> bs) ≡ₚ es ++ concat (<[b:=[]]> bs).
  Proof. intros Hb. pose proof (concat_focus (λ es, es) bs b es Hb eq_refl) as Hx. by rewrite !map_id in Hx. Qed.
  Lemma concat_focus0' bs b es : bs !! b = Some es → concat bs ≡ₚ es ++ concat (<[b:=[]]> bs).
  Proof. intros Hb. rewrite <- (list_insert_id bs b es Hb) at 1. apply concat_focus0. by eapply lookup_lt_Some. Qed.

  Record HOK h bs : Prop := {
    ho_heap : CH 4 cap (ht_al h) (hcells bs);
    ho_bk : buckets h = map (fst0 0) bs;
    ho_ne : bs ≠ [];
    ho_hash : ∀ b es, bs !! b = Some es → Forall (λ e, hash e.2.1 mod lengthN bs = N.of_nat b) es;
    ho_keys : distinct_keys keq (concat bs).*2;
  }.

  (** The bucket of a key *)
  Definition bk bs (k : K) : nat := N.to_nat (hash k mod lengthN bs).
  Lemma bk_lt bs k : bs ≠ [] → (bk bs k < length bs)%nat.
  Proof.
    intros Hne. unfold bk. assert (hash k mod lengthN bs < lengthN bs); [|unfold lengthN in *; lia].
    apply N.mod_lt. unfold lengthN. destruct bs; simpl; [done|lia].
  Qed.
  Lemma bk_chain h bs k : HOK h bs → ∃ es, bs !! bk bs k = Some es.
  Proof. intros []. apply lookup_lt_is_Some. by apply bk_lt. Qed.

  (** Keys equal to [k] are only in its bucket *)
  Lemma HOK_other h bs b es k : HOK h bs → bs !! b = Some es → b ≠ bk bs k → Forall (λ e, keq e.2.1 k = false) es.
  Proof using HL.
    intros [] Hb Hne. specialize (ho_hash0 b es Hb). eapply Forall_impl; [done|]. intros e He. simpl in He.
    destruct (keq e.2.1 k) eqn:E; [|done]. exfalso. apply Hne. unfold bk. rewrite <- (hash_keq _ _ HL _ _ E), He. lia.
  Qed.
  Lemma HOK_rest h bs k : HOK h bs → Forall (λ e, keq e.2.1 k = false) (concat (<[bk bs k:=[]]> bs)).
  Proof using HL.
    intros Hok. apply Forall_concat. apply Forall_forall. intros es [b Hb]%elem_of_list_lookup.
    destruct (decide (b = bk bs k)) as [->|Hne].
    - rewrite list_lookup_insert in Hb by (apply bk_lt, (ho_ne _ _ Hok)). injection Hb as <-. done.
    - rewrite list_lookup_insert_ne in Hb by done. by eapply HOK_other.
  Qed.

  (** Where a key is *)
  Inductive located h bs k : Prop :=
  | loc_here es1 i kv es2 :
      bs !! bk bs k = Some (es1 ++ (i, kv) :: es2) → keq kv.1 k = true →
      Forall (λ e, keq e.2.1 k = false) es1 → Forall (λ e, keq e.2.1 k = false) es2 → located h bs k
  | loc_none es : bs !! bk bs k = Some es → Forall (λ e, keq e.2.1 k = false) (concat bs) → located h bs k.
  Lemma locate h bs k : HOK h bs → located h bs k.
  Proof using HL.
    intros Hok. destruct (bk_chain h bs k Hok) as [es Hes]. pose proof (concat_focus0' _ _ _ Hes) as Hp.
    assert (distinct_keys keq es.*2) as Hd.
    { pose proof (ho_keys _ _ Hok) as Hk. eapply dk_perm in Hk; [|apply fmap_Permutation, Hp]. clear - HL Hk.
      rewrite fmap_app in Hk. induction es as [|e es IH]; simpl in *; [constructor|].
      apply dk_cons in Hk as [H1 H2]. apply Forall_app in H1 as [H1 _]. apply dk_cons. split; [done|by apply IH]. }
    assert (Forall (λ e, keq e.2.1 k = false) es ∨ ∃ es1 i kv es2, es = es1 ++ (i, kv) :: es2 ∧ keq kv.1 k = true ∧
      Forall (λ e, keq e.2.1 k = false) es1) as [Hn|(es1 & i & kv & es2 & -> & He & Hf)].
    { clear. induction es as [|[i kv] es IH]; [by left|]. destruct (keq kv.1 k) eqn:E.
      - right. exists [], i, kv, es. done.
      - destruct IH as [?|(es1 & j & kv' & es2 & -> & ? & ?)]; [left; by apply Forall_cons|].
        right. exists ((i, kv) :: es1), j, kv', es2. split; [done|]. split; [done|]. by apply Forall_cons. }
    - eapply loc_none; [done|]. rewrite Hp. apply Forall_app. split; [done|]. by apply (HOK_rest h).
    - eapply loc_here; [done|done|done|].
      rewrite fmap_app in Hd. simpl in Hd.
      assert (distinct_keys keq (kv :: es2.*2)) as Hd2.
      { revert Hd. generalize (es1.*2). clear - HL. intros l. induction l as [|x l IH]; simpl; [done|].
        intros [_ ?]%dk_cons. by apply IH. }
      apply dk_cons in Hd2 as [Hd2 _]. apply Forall_fmap in Hd2. eapply Forall_impl; [done|]. intros e Hx. simpl in Hx.
      destruct (keq e.2.1 k) eqn:E; [|done]. exfalso. eapply (keq_false_trans e.2.1 kv.1); done.
  Qed.

  (** ** Reading *)
  Lemma ht_bucket_index_ok h bs k : HOK h bs → ht_bucket_index hash h k = Val (N.of_nat (bk bs k)).
  Proof.
    intros []. unfold ht_bucket_index. assert (lengthN (buckets h) = lengthN bs) as Hl.
    { rewrite ho_bk0. unfold lengthN. by rewrite map_length. }
    rewrite Hl. rewrite decide_False; [f_equal; unfold bk; lia|]. unfold lengthN. destruct bs; simpl; [done|lia].
  Qed.
  Lemma ht_bucket_ok h bs (b : nat) es : HOK h bs → bs !! b = Some es → ht_bucket h (N.of_nat b) = Val (fst0 0 es).
  Proof.
    intros [] Hb. unfold ht_bucket. assert (lookupN (buckets h) (N.of_nat b) = Some (fst0 0 es)) as ->; [|done].
    apply lookupN_Some. rewrite Nat2N.id, ho_bk0. etrans; [apply (list_lookup_fmap (fst0 0) bs b)|]. by rewrite Hb.
  Qed.
  Lemma ht_read h bs b es1 i kv es2 :
    HOK h bs → bs !! b = Some (es1 ++ (i, kv) :: es2) →
    i ≠ 0 ∧ ht_get_node h i = Val kv ∧ ht_get_next h i = Val (fst0 0 es2) ∧ ht_get_prev h i = Val (lst0 0 es1).
  Proof.
    intros [Hh _ _ _ _] Hb. rewrite (hcells_focus' _ _ _ Hb) in Hh. rewrite hseg_app in Hh. simpl in Hh.
    assert (∀ X Y (x : N * node (K * V)), x ∈ (X ++ x :: Y) ++ hoth b bs) as Hin by (intros; rewrite !elem_of_app, elem_of_cons; auto).
    split_and!.
    - eapply CH_nz; [exact Hh|apply Hin].
    - unfold ht_get_node. by rewrite (CH_get _ _ _ _ _ _ Hh (Hin _ _ _)).
    - unfold ht_get_next. eapply CH_get_register; [exact Hh|apply Hin|done].
    - unfold ht_get_prev. eapply CH_get_register; [exact Hh|apply Hin|done].
  Qed.

  Lemma HOK_chain_len h bs b es : HOK h bs → bs !! b = Some es → (length es ≤ length (nodes (ht_al h)))%nat.
  Proof.
    intros [] Hb. pose proof (CH_len_le _ _ _ _ ho_heap0) as Hl. pose proof (CH_cap _ _ _ _ ho_heap0) as Hc.
    rewrite hcells_length in Hl. unfold lengthN, MAX_SIZE in *. rewrite (concat_focus0' _ _ _ Hb), app_length in Hl. unfold lengthN in Hc. lia.
  Qed.
  Lemma ht_get_addr_loop_ok h bs b k es1 es2 fuel :
    HOK h bs → bs !! b = Some (es1 ++ es2) → (length es2 < fuel)%nat →
    (∀ es3 i kv es4, es2 = es3 ++ (i, kv) :: es4 → keq kv.1 k = true → Forall (λ e, keq e.2.1 k = false) es3 →
      ht_get_addr_loop keq fuel h k (fst0 0 es2) = Val i) ∧
    (Forall (λ e, keq e.2.1 k = false) es2 → ht_get_addr_loop keq fuel h k (fst0 0 es2) = Val 0).
  Proof.
    intros Hok. revert es1 es2. induction fuel as [|fuel IH]; intros es1 es2 Hb Hf; [lia|].
    destruct es2 as [|[j kv'] es2].
    { split; [by intros [] ? ? ?|]. intros _. done. }
    destruct (ht_read _ _ _ _ _ _ _ Hok Hb) as (Hnz & Hn & Hnx & _).
    assert (ht_get_addr_loop keq (S fuel) h k (fst0 0 ((j, kv') :: es2)) =
      if keq kv'.1 k then Val j else ht_get_addr_loop keq fuel h k (fst0 0 es2)) as Heq.
    { simpl. rewrite decide_False by done. rewrite Hn. simpl. destruct (keq kv'.1 k); [done|]. by rewrite Hnx. }
    rewrite Heq. destruct (IH (es1 ++ [(j, kv')]) es2) as [IH1 IH2]; [by rewrite <- app_assoc|simpl in Hf; lia|]. split.
    - intros es3 i kv es4 He Hk Hfa. destruct es3 as [|[j' kv3] es3]; simpl in He; injection He as -> -> ->.
      + by rewrite Hk.
      + apply Forall_cons in Hfa as [Hx Hfa]. simpl in Hx. rewrite Hx. by eapply IH1.
    - intros [Hx Hfa]%Forall_cons. simpl in Hx. rewrite Hx. by apply IH2.
  Qed.
  Lemma ht_lookup_found h bs k es1 i kv es2 :
    HOK h bs → bs !! bk bs k = Some (es1 ++ (i, kv) :: es2) → keq kv.1 k = true → Forall (λ e, keq e.2.1 k = false) es1 →
    ht_bucket h (N.of_nat (bk bs k)) = Val (fst0 0 (es1 ++ (i, kv) :: es2)) ∧
    ht_get_addr_loop keq (ht_fuel h) h k (fst0 0 (es1 ++ (i, kv) :: es2)) = Val i.
  Proof.
    intros Hok Hb Hk Hf. split; [by apply (ht_bucket_ok _ _ _ _ Hok)|].
    pose proof (HOK_chain_len _ _ _ _ Hok Hb).
    eapply (ht_get_addr_loop_ok h bs _ k [] _ (ht_fuel h) Hok Hb); [unfold ht_fuel; lia|reflexivity|done|done].
  Qed.
  Lemma ht_lookup_none h bs k es :
    HOK h bs → bs !! bk bs k = Some es → Forall (λ e, keq e.2.1 k = false) (concat bs) →
    ht_bucket h (N.of_nat (bk bs k)) = Val (fst0 0 es) ∧ ht_get_addr_loop keq (ht_fuel h) h k (fst0 0 es) = Val 0.
  Proof.
    intros Hok Hb Hf. split; [by apply (ht_bucket_ok _ _ _ _ Hok)|].
    pose proof (HOK_chain_len _ _ _ _ Hok Hb).
    eapply (ht_get_addr_loop_ok h bs _ k [] _ (ht_fuel h) Hok Hb); [unfold ht_fuel; lia|].
    rewrite (concat_focus0' _ _ _ Hb) in Hf. by apply Forall_app in Hf as [? _].
  Qed.

  (** ** The table as a set of entries (slot, pair) *)
  Definition HI h (E : list (N * (K * V))) : Prop := ∃ bs, HOK h bs ∧ E ≡ₚ concat bs.
  Lemma HI_perm h E E' : HI h E → E ≡ₚ E' → HI h E'.
  Proof. intros (bs & ? & ?) Hp. exists bs. split; [done|]. by rewrite <- Hp. Qed.
  Lemma HI_keys h E : HI h E → distinct_keys keq E.*2.
  Proof using HL. intros (bs & [] & Hp). eapply dk_perm; [|done]. by rewrite Hp. Qed.
  Lemma HI_NoDup h E : HI h E → NoDup E.*1.
  Proof. intros (bs & [] & Hp). apply CH_NoDup in ho_heap0. rewrite hcells_fst in ho_heap0. by rewrite Hp. Qed.
  Lemma HI_nz h E i : HI h E → i ∈ E.*1 → i ≠ 0.
  Proof. intros (bs & [] & Hp) Hi. eapply CH_nz'; [done|]. rewrite hcells_fst. by rewrite <- Hp. Qed.
  Lemma HI_len h E : HI h E → ht_len h = lengthN E.
  Proof.
    intros (bs & [] & Hp). unfold ht_len. rewrite (CH_size _ _ _ _ ho_heap0), hcells_length. unfold lengthN. by rewrite Hp.
  Qed.
  Lemma HI_capacity h E : HI h E → ht_capacity h = cap.
  Proof. intros (bs & [] & Hp). by eapply CH_cap. Qed.
  Lemma HI_len_le h E : HI h E → lengthN E ≤ cap.
  Proof. intros (bs & [] & Hp). apply CH_len_le in ho_heap0. rewrite hcells_length in ho_heap0. unfold lengthN in *. by rewrite Hp. Qed.

  (** Either a key has one entry, or none *)
  Lemma HI_case h E k :
    HI h E → (∃ i kv R, E ≡ₚ (i, kv) :: R ∧ keq kv.1 k = true ∧ Forall (λ e, keq e.2.1 k = false) R) ∨
             Forall (λ e, keq e.2.1 k = false) E.
  Proof using HL.
    intros (bs & Hok & Hp). destruct (locate h bs k Hok) as [es1 i kv es2 Hb Hk H1 H2|es Hb Hf].
    - left. exists i, kv, (es1 ++ es2 ++ concat (<[bk bs k:=[]]> bs)). split_and!; [|done|].
      + rewrite Hp, (concat_focus0' _ _ _ Hb), <- app_assoc. symmetry. apply Permutation_middle.
      + apply Forall_app; split; [done|]. apply Forall_app; split; [done|]. by apply (HOK_rest h).
    - right. by rewrite Hp.
  Qed.
  Lemma loc_found h bs E k i kv R :
    HOK h bs → E ≡ₚ concat bs → E ≡ₚ (i, kv) :: R → keq kv.1 k = true →
    ∃ es1 es2, bs !! bk bs k = Some (es1 ++ (i, kv) :: es2) ∧ Forall (λ e, keq e.2.1 k = false) es1 ∧
      R ≡ₚ es1 ++ es2 ++ concat (<[bk bs k:=[]]> bs).
  Proof using HL.
    intros Hok Hp Hr Hk. destruct (locate h bs k Hok) as [es1 i' kv' es2 Hb Hk' H1 H2|es Hb Hf].
    - assert (E ≡ₚ (i', kv') :: es1 ++ es2 ++ concat (<[bk bs k:=[]]> bs)) as He.
      { rewrite Hp, (concat_focus0' _ _ _ Hb), <- app_assoc. symmetry. apply Permutation_middle. }
      assert ((i, kv) ∈ (i', kv') :: es1 ++ es2 ++ concat (<[bk bs k:=[]]> bs)) as Hin.
      { rewrite <- He, Hr. mem. }
      assert (Forall (λ e : N * (K * V), keq e.2.1 k = false) (es1 ++ es2 ++ concat (<[bk bs k:=[]]> bs))) as Hfa.
      { apply Forall_app; split; [done|]. apply Forall_app; split; [done|]. by apply (HOK_rest h). }
      apply elem_of_cons in Hin as [[= -> ->]|Hin].
      + exists es1, es2. split_and!; [done|done|]. rewrite He in Hr. by apply Permutation_cons_inv in Hr.
      + rewrite Forall_forall in Hfa. specialize (Hfa _ Hin). simpl in Hfa. congruence.
    - exfalso. rewrite <- Hp, Hr in Hf. apply Forall_cons in Hf as [Hf _]. simpl in Hf. congruence.
  Qed.

  (** Replacing one chain *)
  Lemma HOK_update h bs b es es' a' :
    HOK h bs → bs !! b = Some es → CH 4 cap a' (hseg 0 es' 0 ++ hoth b bs) →
    Forall (λ e, hash e.2.1 mod lengthN bs = N.of_nat b) es' →
    distinct_keys keq (es' ++ concat (<[b:=[]]> bs)).*2 →
    HOK (HT (<[b:=fst0 0 es']> (buckets h)) a') (<[b:=es']> bs).
  Proof using HL.
    intros [] Hb Ha Hh Hd. assert (b < length bs)%nat as Hlt by (by eapply lookup_lt_Some). constructor; simpl.
    - by rewrite hcells_focus.
    - rewrite ho_bk0. symmetry. apply (list_fmap_insert (fst0 0)).
    - intros He. apply ho_ne0. apply nil_length_inv. rewrite <- (insert_length bs b es'). by rewrite He.
    - intros b' es0 Hb0. unfold lengthN. rewrite insert_length. change (N.of_nat (length bs)) with (lengthN bs).
      destruct (decide (b = b')) as [<-|Hne].
      + rewrite list_lookup_insert in Hb0 by done. by injection Hb0 as <-.
      + rewrite list_lookup_insert_ne in Hb0 by done. by apply ho_hash0.
    - eapply dk_perm; [|exact Hd]. by rewrite (concat_focus0 _ _ es').
  Qed.
  (** The same, stated for entries *)
  Lemma HI_update h bs b es es' a' E' :
    HOK h bs → bs !! b = Some es → CH 4 cap a' (hseg 0 es' 0 ++ hoth b bs) →
    Forall (λ e, hash e.2.1 mod lengthN bs = N.of_nat b) es' →
    distinct_keys keq E'.*2 → E' ≡ₚ es' ++ concat (<[b:=[]]> bs) →
    HI (HT (<[b:=fst0 0 es']> (buckets h)) a') E'.
  Proof using HL.
    intros Hok Hb Ha Hh Hd Hp. exists (<[b:=es']> bs). split.
    - eapply HOK_update; [done|done|done|done|]. eapply dk_perm; [|exact Hd]. by rewrite Hp.
    - rewrite Hp, (concat_focus0 _ _ es'); [done|]. by eapply lookup_lt_Some.
  Qed.
  Lemma HI_update' h bs b es es' a' E' :
    HOK h bs → bs !! b = Some es → CH 4 cap a' (hseg 0 es' 0 ++ hoth b bs) →
    Forall (λ e, hash e.2.1 mod lengthN bs = N.of_nat b) es' →
    distinct_keys keq E'.*2 → E' ≡ₚ es' ++ concat (<[b:=[]]> bs) → fst0 0 es' = fst0 0 es →
    HI (set_hal a' h) E'.
  Proof using HL.
    intros Hok Hb Ha Hh Hd Hp Hf. pose proof (HI_update _ _ _ _ _ _ _ Hok Hb Ha Hh Hd Hp) as Hi.
    rewrite Hf, list_insert_id in Hi; [done|]. rewrite (ho_bk _ _ Hok). etrans; [apply (list_lookup_fmap (fst0 0) bs b)|]. by rewrite Hb.
  Qed.
  Lemma ht_on_wp {A} (m : M (alloc (K * V)) A) h Q : wp m (ht_al h) (λ x a, Q x (set_hal a h)) → wp (ht_on m) h Q.
  Proof. apply wp_zoom. Qed.
  Lemma wp_set_bucket h bs bks a' (b : nat) x (Q : () → htable K V → Prop) :
    HOK h bs → length bks = length bs → (b < length bs)%nat →
    Q () (HT (<[b:=x]> bks) a') → wp (ht_set_bucket (N.of_nat b) x) (HT bks a') Q.
  Proof.
    intros Hok Hl Hb HQ. unfold ht_set_bucket. apply wp_bind.
    destruct (lookup_lt_is_Some_2 bks b) as [y Hy]; [lia|].
    eapply wp_gets; [unfold ht_bucket; simpl; assert (lookupN bks (N.of_nat b) = Some y) as ->; [apply lookupN_Some; by rewrite Nat2N.id|done]|].
    apply wp_modify. unfold set_buckets, insertN. simpl. by rewrite Nat2N.id.
  Qed.
  Lemma HOK_bk_len h bs : HOK h bs → length (buckets h) = length bs.
  Proof. intros []. rewrite ho_bk0. apply map_length. Qed.

  Lemma bk_hash bs k k' : keq k' k = true → hash k' mod lengthN bs = N.of_nat (bk bs k).
  Proof using HL. intros He. unfold bk. rewrite (hash_keq _ _ HL _ _ He). lia. Qed.

  Lemma wp_set_node_value h bs b es1 i kv es2 v (Q : () → htable K V → Prop) :
    CH 4 cap (ht_al h) (hseg 0 (es1 ++ (i, kv) :: es2) 0 ++ hoth b bs) →
    (∀ a', CH 4 cap a' (hseg 0 (es1 ++ (i, (kv.1, v)) :: es2) 0 ++ hoth b bs) → Q () (set_hal a' h)) →
    wp (ht_set_node_value i v) h Q.
  Proof.
    intros Hh HQ. unfold ht_set_node_value. apply ht_on_wp. rewrite hseg_app in Hh. simpl in Hh. rewrite <- app_assoc in Hh.
    eapply CH_perm in Hh; [|symmetry; apply Permutation_middle].
    eapply CH_get_mut; [exact _|exact Hh|done|]. intros a' Ha'. simpl. apply HQ.
    eapply CH_perm; [exact Ha'|]. rewrite hseg_app. simpl. rewrite <- app_assoc. apply Permutation_middle.
  Qed.

  Lemma dk_swap (i i' : N) (kv kv' : K * V) (R : list (N * (K * V))) : kv.1 = kv'.1 → distinct_keys keq ((i, kv) :: R).*2 → distinct_keys keq ((i', kv') :: R).*2.
  Proof using HL. intros He. cbn. rewrite !dk_cons. by rewrite He. Qed.

  Lemma ht_insert_found h E k v i kv R :
    HI h E → E ≡ₚ (i, kv) :: R → keq kv.1 k = true →
    wp (ht_insert keq hash k v) h (λ o h', o = Some i ∧ HI h' ((i, (kv.1, v)) :: R)).
  Proof using GA HL.
    intros Hi Hr Hk. pose proof (HI_keys _ _ Hi) as Hd. destruct Hi as (bs & Hok & Hp).
    destruct (loc_found _ _ _ _ _ _ _ Hok Hp Hr Hk) as (es1 & es2 & Hb & Hf & HR).
    destruct (ht_lookup_found _ _ _ _ _ _ _ Hok Hb Hk Hf) as [H1 H2].
    destruct (ht_read _ _ _ _ _ _ _ Hok Hb) as (Hnz & _ & _ & _).
    eapply wp_ext; [apply ht_insert_s_ok|]. unfold ht_insert_s. apply wp_bind. eapply wp_gets; [by eapply ht_bucket_index_ok|].
    apply wp_bind. eapply wp_gets; [exact H1|]. apply wp_bind. eapply wp_gets; [exact H2|].
    rewrite decide_True by done. apply wp_bind.
    eapply wp_set_node_value; [pose proof (ho_heap _ _ Hok) as Hh; by rewrite (hcells_focus' _ _ _ Hb) in Hh|].
    intros a' Ha'. apply wp_ret. split; [done|]. eapply HI_update'; [exact Hok|exact Hb|exact Ha'| | | |].
    - pose proof (ho_hash _ _ Hok _ _ Hb) as Hh. rewrite !Forall_app, !Forall_cons in *. tauto.
    - eapply dk_swap; [|eapply dk_perm; [|exact Hd]]; [|by rewrite Hr]. done.
    - rewrite HR. rewrite <- app_assoc. apply Permutation_middle.
    - by rewrite !fst0_app.
  Qed.
  Lemma ht_insert_new h E k v :
    HI h E → Forall (λ e, keq e.2.1 k = false) E → lengthN E < cap →
    wp (ht_insert keq hash k v) h (λ o h', ∃ i, o = Some i ∧ HI h' ((i, (k, v)) :: E)).
  Proof using GA HL.
    intros Hi Hfa Hlt. pose proof (HI_keys _ _ Hi) as Hd. pose proof (HI_len _ _ Hi) as Hlen. pose proof (HI_capacity _ _ Hi) as Hcap.
    destruct Hi as (bs & Hok & Hp). destruct (bk_chain h bs k Hok) as [es Hb].
    destruct (ht_lookup_none _ _ k _ Hok Hb) as [H1 H2]; [by rewrite <- Hp|].
    eapply wp_ext; [apply ht_insert_s_ok|]. unfold ht_insert_s. apply wp_bind. eapply wp_gets; [by eapply ht_bucket_index_ok|].
    apply wp_bind. eapply wp_gets; [exact H1|]. apply wp_bind. eapply wp_gets; [exact H2|].
    rewrite decide_False by (intros Hx; by apply Hx). unfold ht_insert_new_node. apply wp_bind, wp_mget. rewrite decide_False by lia.
    apply wp_bind, ht_on_wp. eapply CH_add_node; [exact _|exact (ho_heap _ _ Hok)| |].
    { rewrite hcells_length. unfold lengthN in *. by rewrite <- Hp. }
    intros i a Ha. apply wp_bind. unfold set_hal.
    eapply wp_set_bucket; [exact Hok|by apply HOK_bk_len|by eapply lookup_lt_Some|].
    rewrite (hcells_focus' _ _ _ Hb) in Ha. simpl in Ha.
    assert (∀ a', CH 4 cap a' (hseg 0 ((i, (k, v)) :: es) 0 ++ hoth (bk bs k) bs) →
      HI (HT (<[bk bs k:=i]> (buckets h)) a') ((i, (k, v)) :: E)) as Hfin.
    { intros a' Ha'. apply (HI_update _ _ _ _ _ _ ((i, (k, v)) :: E) Hok Hb Ha').
      - apply Forall_cons. split; [apply bk_hash; apply (keq_refl _ _ HL)|]. by apply (ho_hash _ _ Hok).
      - cbn. apply dk_cons. split; [|done]. by apply Forall_fmap.
      - simpl. f_equiv. rewrite Hp. by apply concat_focus0'. }
    destruct es as [|[j w] es]; simpl in *.
    - apply wp_bind, wp_ret, wp_ret. eexists. split; [done|]. by apply Hfin.
    - destruct (ht_read _ _ _ [] _ _ _ Hok Hb) as (Hnz & _). apply wp_bind. rewrite decide_True by done.
      apply ht_on_wp. simpl. eapply CH_connect; [exact Ha|done..|]. intros a' Ha'. apply wp_ret. eexists. split; [done|].
      by apply Hfin.
  Qed.
  Lemma ht_insert_full h E k v :
    HI h E → Forall (λ e, keq e.2.1 k = false) E → cap ≤ lengthN E → ht_insert keq hash k v h = Ret None h.
  Proof using HL.
    intros Hi Hfa Hge. pose proof (HI_len _ _ Hi) as Hlen. pose proof (HI_capacity _ _ Hi) as Hcap.
    destruct Hi as (bs & Hok & Hp). destruct (bk_chain h bs k Hok) as [es Hb].
    destruct (ht_lookup_none _ _ k _ Hok Hb) as [H1 H2]; [by rewrite <- Hp|].
    rewrite ht_insert_s_ok. unfold ht_insert_s, mbind, M_bind, gets. rewrite (ht_bucket_index_ok _ _ _ Hok), H1, H2.
    rewrite decide_False by (intros Hx; by apply Hx). unfold ht_insert_new_node, mbind, M_bind, mget. rewrite decide_True by lia. done.
  Qed.

  (** Closing the gap around a node *)
  Lemma wp_unlink a es1 i es2 R (Q : () → alloc (K * V) → Prop) :
    CH 4 cap a (hseg 0 es1 i ++ hseg i es2 0 ++ R) →
    (∀ a', CH 4 cap a' (hseg 0 (es1 ++ es2) 0 ++ R) → Q () a') →
    wp (na_connect (lst0 0 es1) (fst0 0 es2) Right Left) a Q.
  Proof.
    intros Ha HQ. destruct (snoc_case es1) as [->|(es0 & j & w & ->)]; destruct es2 as [|[l u] es2].
    - simpl in *. apply wp_connect_00. by apply HQ.
    - simpl in *. eapply CH_connect_0l; [exact Ha|done|]. intros a' Ha'. apply HQ. exact Ha'.
    - rewrite lst0_snoc. rewrite hseg_app in Ha. simpl in *. rewrite <- app_assoc in Ha. simpl in Ha.
      eapply CH_perm in Ha; [|symmetry; apply Permutation_middle].
      eapply CH_connect_0r; [exact Ha|done|]. intros a' Ha'. apply HQ.
      eapply CH_perm; [exact Ha'|]. rewrite app_nil_r, hseg_app. simpl. rewrite <- app_assoc. apply Permutation_middle.
    - rewrite lst0_snoc. rewrite hseg_app in Ha. simpl in *. rewrite <- !app_assoc in Ha. simpl in Ha.
      eapply CH_connect with (cs := hseg 0 es0 j ++ hseg l es2 0 ++ R) (n := Node [lst0 0 es0; i; 0; 0] w) (m := Node [i; fst0 0 es2; 0; 0] u);
        [eapply CH_perm; [exact Ha|generalize (hseg 0 es0 j) (hseg l es2 0); intros; solve_Permutation]|done|done|].
      intros a' Ha'. apply HQ. eapply CH_perm; [exact Ha'|]. rewrite <- !app_assoc, hseg_app. simpl. rewrite <- !app_assoc. simpl.
      generalize (hseg 0 es0 j) (hseg l es2 0). intros. unfold setr, insertN. simpl. solve_Permutation.
  Qed.

  Lemma ht_remove_found h E k i kv R :
    HI h E → E ≡ₚ (i, kv) :: R → keq kv.1 k = true →
    wp (ht_remove keq hash k) h (λ o h', o = Some kv.2 ∧ HI h' R).
  Proof using GR HL.
    intros Hi Hr Hk. pose proof (HI_keys _ _ Hi) as Hd. pose proof (HI_NoDup _ _ Hi) as Hnd. destruct Hi as (bs & Hok & Hp).
    destruct (loc_found _ _ _ _ _ _ _ Hok Hp Hr Hk) as (es1 & es2 & Hb & Hf & HR).
    destruct (ht_lookup_found _ _ _ _ _ _ _ Hok Hb Hk Hf) as [H1 H2].
    destruct (ht_read _ _ _ _ _ _ _ Hok Hb) as (Hnz & Hn & Hnx & Hpv).
    eapply wp_ext; [apply ht_remove_s_ok|]. unfold ht_remove_s. apply wp_bind. eapply wp_gets; [by eapply ht_bucket_index_ok|].
    apply wp_bind. eapply wp_gets; [exact H1|]. apply wp_bind. eapply wp_gets; [exact H2|].
    rewrite decide_False by done. apply wp_bind. eapply wp_gets; [exact Hn|]. apply wp_bind. eapply wp_gets; [exact Hpv|].
    apply wp_bind. eapply wp_gets; [exact Hnx|].
    pose proof (ho_heap _ _ Hok) as Hh. rewrite (hcells_focus' _ _ _ Hb), hseg_app in Hh. simpl in Hh. rewrite <- app_assoc in Hh. simpl in Hh.
    eapply CH_perm in Hh; [|symmetry; apply Permutation_middle].
    apply wp_bind, ht_on_wp. eapply CH_clear_register; [exact Hh|done|]. intros a1 Ha1.
    apply wp_bind, ht_on_wp. simpl. eapply CH_clear_register; [exact Ha1|done|]. intros a2 Ha2. unfold setr, insertN in Ha2. simpl in Ha2.
    apply wp_bind, ht_on_wp. simpl. eapply CH_remove_node; [exact _|exact Ha2|]. intros a3 Ha3. simpl. unfold set_hal. simpl.
    assert (distinct_keys keq R.*2) as HdR. { eapply dk_perm in Hd; [|by apply fmap_Permutation]. by apply dk_cons in Hd as [_ ?]. }
    assert (∀ a', CH 4 cap a' (hseg 0 (es1 ++ es2) 0 ++ hoth (bk bs k) bs) →
      HI (HT (<[bk bs k:=fst0 0 (es1 ++ es2)]> (buckets h)) a') R) as Hfin.
    { intros a' Ha'. apply (HI_update _ _ _ _ _ _ R Hok Hb Ha').
      - pose proof (ho_hash _ _ Hok _ _ Hb) as Hx. rewrite !Forall_app, !Forall_cons in *. tauto.
      - done.
      - by rewrite <- app_assoc. }
    destruct es1 as [|[j w] es1].
    - cbn [app fst0 lst0 hseg] in *. apply wp_bind. rewrite decide_True by done. apply wp_bind, wp_massert; [done|].
      eapply wp_set_bucket; [exact Hok|by apply HOK_bk_len|by eapply lookup_lt_Some|].
      apply wp_bind, ht_on_wp. simpl. eapply (wp_unlink _ [] i); [exact Ha3|]. intros a4 Ha4. apply wp_ret. split; [done|].
      by apply Hfin.
    - assert (j ≠ i) as Hji.
      { intros ->. rewrite Hr, HR in Hnd. simpl in Hnd. apply NoDup_cons in Hnd as [Hni _]. apply Hni. mem. }
      apply wp_bind. rewrite decide_False by done. apply wp_ret. apply wp_bind, ht_on_wp. simpl.
      eapply (wp_unlink _ ((j, w) :: es1) i); [exact Ha3|]. intros a4 Ha4. apply wp_ret. split; [done|].
      specialize (Hfin a4 Ha4). simpl in Hfin. rewrite list_insert_id in Hfin; [done|].
      rewrite (ho_bk _ _ Hok). etrans; [apply (list_lookup_fmap (fst0 0) bs)|]. by rewrite Hb.
  Qed.
  Lemma ht_remove_none h E k :
    HI h E → Forall (λ e, keq e.2.1 k = false) E → ht_remove keq hash k h = Ret None h.
  Proof using HL.
    intros (bs & Hok & Hp) Hfa. destruct (bk_chain h bs k Hok) as [es Hb].
    destruct (ht_lookup_none _ _ k _ Hok Hb) as [H1 H2]; [by rewrite <- Hp|].
    rewrite ht_remove_s_ok. unfold ht_remove_s, mbind, M_bind, gets. rewrite (ht_bucket_index_ok _ _ _ Hok), H1, H2. done.
  Qed.

  Lemma ht_get_mut_found h E k f i kv R :
    HI h E → E ≡ₚ (i, kv) :: R → keq kv.1 k = true →
    wp (ht_get_mut keq hash k f) h (λ o h', o = Some kv.2 ∧ HI h' ((i, (kv.1, f kv.2)) :: R)).
  Proof using GA HL.
    intros Hi Hr Hk. pose proof (HI_keys _ _ Hi) as Hd. pose proof (HI_NoDup _ _ Hi) as Hnd. destruct Hi as (bs & Hok & Hp).
    destruct (loc_found _ _ _ _ _ _ _ Hok Hp Hr Hk) as (es1 & es2 & Hb & Hf & HR).
    destruct (ht_lookup_found _ _ _ _ _ _ _ Hok Hb Hk Hf) as [H1 H2].
    destruct (ht_read _ _ _ _ _ _ _ Hok Hb) as (Hnz & Hn & Hnx & Hpv).
    eapply wp_ext; [apply ht_get_mut_s_ok|]. unfold ht_get_mut_s. apply wp_bind. eapply wp_gets; [by eapply ht_bucket_index_ok|].
    apply wp_bind. eapply wp_gets; [exact H1|]. apply wp_bind. eapply wp_gets; [exact H2|].
    rewrite decide_False by done. apply wp_bind. eapply wp_gets; [exact Hpv|]. apply wp_bind. eapply wp_gets; [exact Hnx|].
    assert (∀ a', CH 4 cap a' (hseg 0 ((i, kv) :: es1 ++ es2) 0 ++ hoth (bk bs k) bs) →
      wp (ht_set_bucket (N.of_nat (bk bs k)) i;; n ← gets (λ h, ht_get_node h i); ht_set_node_value i (f n.2);; mret (Some n.2))
        (HT (buckets h) a') (λ o h', o = Some kv.2 ∧ HI h' ((i, (kv.1, f kv.2)) :: R))) as Hrest.
    { intros a' Ha'. apply wp_bind. eapply wp_set_bucket; [exact Hok|by apply HOK_bk_len|by eapply lookup_lt_Some|].
      apply wp_bind. eapply wp_gets.
      { unfold ht_get_node. simpl. erewrite CH_get; [|exact Ha'|simpl; mem]. reflexivity. }
      apply wp_bind. simpl. eapply (wp_set_node_value _ bs (bk bs k) [] i kv (es1 ++ es2)); [exact Ha'|].
      intros a2 Ha2. apply wp_ret. split; [done|]. unfold set_hal. simpl.
      apply (HI_update _ _ _ _ _ _ ((i, (kv.1, f kv.2)) :: R) Hok Hb Ha2).
      - pose proof (ho_hash _ _ Hok _ _ Hb) as Hh. simpl. rewrite Forall_cons, !Forall_app, !Forall_cons in *. tauto.
      - eapply dk_swap; [|eapply dk_perm; [|exact Hd]]; [|by rewrite Hr]. done.
      - simpl. rewrite HR. by rewrite <- app_assoc. }
    pose proof (ho_heap _ _ Hok) as Hh. rewrite (hcells_focus' _ _ _ Hb) in Hh.
    destruct es1 as [|[j w] es1].
    - simpl in *. apply wp_bind. rewrite decide_False by (intros Hx; by apply Hx). apply wp_ret. destruct h. by apply Hrest.
    - assert (j ≠ i) as Hji.
      { intros ->. rewrite Hr, HR in Hnd. simpl in Hnd. apply NoDup_cons in Hnd as [Hni _]. apply Hni. mem. }
      apply wp_bind. rewrite decide_True by (simpl; done).
      rewrite hseg_app in Hh. simpl in Hh. rewrite <- app_assoc in Hh. simpl in Hh.
      eapply CH_perm in Hh; [|rewrite app_comm_cons; symmetry; apply Permutation_middle].
      apply wp_bind, ht_on_wp. eapply CH_clear_register; [exact Hh|done|]. intros a1 Ha1. unfold setr, insertN in Ha1. simpl in Ha1.
      apply wp_bind, ht_on_wp. simpl.
      eapply (wp_unlink _ ((j, w) :: es1) i _ ((i, Node [SENTINEL; fst0 0 es2; 0; 0] kv) :: hoth (bk bs k) bs)).
      { eapply CH_perm; [exact Ha1|]. simpl. generalize (hseg j es1 i) (hseg i es2 0) (hoth (bk bs k) bs). intros. solve_Permutation. }
      intros a2 Ha2. apply ht_on_wp. simpl in *.
      eapply CH_connect with (cs := hseg j (es1 ++ es2) 0 ++ hoth (bk bs k) bs) (n := Node [SENTINEL; fst0 0 es2; 0; 0] kv)
        (m := Node [0; fst0 0 (es1 ++ es2); 0; 0] w);
        [eapply CH_perm; [exact Ha2|generalize (hseg j (es1 ++ es2) 0) (hoth (bk bs k) bs); intros; solve_Permutation]|done|done|].
      intros a3 Ha3. apply Hrest. exact Ha3.
  Qed.
  Lemma ht_get_mut_none h E k f :
    HI h E → Forall (λ e, keq e.2.1 k = false) E → ht_get_mut keq hash k f h = Ret None h.
  Proof using HL.
    intros (bs & Hok & Hp) Hfa. destruct (bk_chain h bs k Hok) as [es Hb].
    destruct (ht_lookup_none _ _ k _ Hok Hb) as [H1 H2]; [by rewrite <- Hp|].
    rewrite ht_get_mut_s_ok. unfold ht_get_mut_s, mbind, M_bind, gets. rewrite (ht_bucket_index_ok _ _ _ Hok), H1, H2. done.
  Qed.

  (** Lookups *)
  Lemma ht_found h E k i kv R :
    HI h E → E ≡ₚ (i, kv) :: R → keq kv.1 k = true →
    ht_get keq hash h k = Val (Some kv.2) ∧ ht_contains_trait keq hash h k = Val true ∧ ht_contains keq hash h k = Val true ∧
    ht_get_addr keq hash h k = Val i ∧ ht_get_node h i = Val kv ∧ ht_index keq hash h k = Val kv.2.
  Proof using HL.
    intros (bs & Hok & Hp) Hr Hk.
    destruct (loc_found _ _ _ _ _ _ _ Hok Hp Hr Hk) as (es1 & es2 & Hb & Hf & HR).
    destruct (ht_lookup_found _ _ _ _ _ _ _ Hok Hb Hk Hf) as [H1 H2].
    destruct (ht_read _ _ _ _ _ _ _ Hok Hb) as (Hnz & Hn & _ & _).
    assert (ht_get keq hash h k = Val (Some kv.2)) as Hg.
    { rewrite ht_get_s_ok. unfold ht_get_s. rewrite (ht_bucket_index_ok _ _ _ Hok). unfold mbind, res_bind. rewrite H1, H2. rewrite decide_False by done.
      by rewrite Hn. }
    split_and!; [done| | | |done|].
    - unfold ht_contains_trait. by rewrite Hg.
    - rewrite ht_contains_s_ok. unfold ht_contains_s. rewrite (ht_bucket_index_ok _ _ _ Hok). unfold mbind, res_bind. rewrite H1, H2. by rewrite decide_False by done.
    - unfold ht_get_addr. rewrite (ht_bucket_index_ok _ _ _ Hok). unfold mbind, res_bind. by rewrite H1, H2.
    - unfold ht_index. by rewrite Hg.
  Qed.
  Lemma ht_absent h E k :
    HI h E → Forall (λ e, keq e.2.1 k = false) E →
    ht_get keq hash h k = Val None ∧ ht_contains_trait keq hash h k = Val false ∧ ht_contains keq hash h k = Val false ∧
    ht_get_addr keq hash h k = Val 0 ∧ ht_index keq hash h k = Err Panic.
  Proof using HL.
    intros (bs & Hok & Hp) Hfa. destruct (bk_chain h bs k Hok) as [es Hb].
    destruct (ht_lookup_none _ _ k _ Hok Hb) as [H1 H2]; [by rewrite <- Hp|].
    assert (ht_get keq hash h k = Val None) as Hg.
    { rewrite ht_get_s_ok. unfold ht_get_s. rewrite (ht_bucket_index_ok _ _ _ Hok). unfold mbind, res_bind. by rewrite H1, H2. }
    split_and!; [done| | | |].
    - unfold ht_contains_trait. by rewrite Hg.
    - rewrite ht_contains_s_ok. unfold ht_contains_s. rewrite (ht_bucket_index_ok _ _ _ Hok). unfold mbind, res_bind. by rewrite H1, H2.
    - unfold ht_get_addr. rewrite (ht_bucket_index_ok _ _ _ Hok). unfold mbind, res_bind. by rewrite H1, H2.
    - unfold ht_index. by rewrite Hg.
  Qed.
End Ht.
