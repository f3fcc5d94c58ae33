(** * Every list that is arranged by buckets is what the iterator of some reachable table gives *)
From Verif Require Import OrderProof CostHt MtfProof UnivSpec UnivMain ArrangeSpec.
Local Open Scope nat_scope.

Lemma fw_inj {A} (l l' : list A) : (∀ script, fw_spec script l = fw_spec script l') → l = l'.
Proof.
  revert l'. induction l as [|x l IH]; intros [|y l'] He; try done.
  - specialize (He [Fwd]). done.
  - specialize (He [Fwd]). done.
  - pose proof (He [Fwd]) as H1. cbn in H1. injection H1 as ->. f_equal. apply IH. intros s. specialize (He (Fwd :: s)). cbn in He. by injection He.
Qed.
Lemma FOP_app {A} (R : A → A → Prop) l1 l2 : ForallOrdPairs R l1 → ForallOrdPairs R l2 → Forall (λ x, Forall (R x) l2) l1 → ForallOrdPairs R (l1 ++ l2).
Proof.
  induction 1 as [|x l1 Hx Hl IH]; intros H2 Hc; [done|]. apply Forall_cons in Hc as [Hc1 Hc2]. cbn. constructor; [|by apply IH]. apply Forall_app. done.
Qed.

Lemma prefix_before {A} (x : A) p c1 c2 rest : c1 ++ x :: c2 = p ++ rest → x ∉ p → ∃ c1', c1 = p ++ c1'.
Proof.
  revert c1. induction p as [|z p IH]; intros c1 He Hn; [by exists c1|].
  destruct c1 as [|w c1]; cbn in He; injection He as -> He; [exfalso; apply Hn; left|]. destruct (IH c1 He) as [c1' ->]; [intros Hin; apply Hn; by right|]. by exists c1'.
Qed.

(** the parts of a list by the values of [f], one after the other *)
Section parts.
  Context {A : Type} (f : A → nat).
  Definition part (l : list A) (j : nat) : list A := filter (λ x, f x = j) l.
  Lemma part_none l j : Forall (λ x, j < f x) l → part l j = [].
  Proof. unfold part. induction 1 as [|x l Hx _ IH]; [done|]. rewrite filter_cons_False by lia. done. Qed.
  Lemma part_cons x l j : part (x :: l) j = (if decide (f x = j) then [x] else []) ++ part l j.
  Proof. unfold part. rewrite filter_cons. by destruct (decide (f x = j)). Qed.
  Lemma nones l lo n : Forall (λ x, lo + n ≤ f x) l → concat (map (part l) (seq lo n)) = [].
  Proof.
    revert lo. induction n as [|n IH]; intros lo Hl; [done|]. cbn [seq map concat]. rewrite part_none by (eapply Forall_impl; [exact Hl|]; intros; cbn in *; lia).
    apply IH. eapply Forall_impl; [exact Hl|]. intros; cbn in *; lia.
  Qed.
  Lemma parts_same x l lo n : f x < lo → map (part (x :: l)) (seq lo n) = map (part l) (seq lo n).
  Proof.
    revert lo. induction n as [|n IH]; intros lo Hl; [done|]. cbn [seq map]. rewrite IH by lia. f_equal. rewrite part_cons. destruct (decide (f x = lo)); [lia|done].
  Qed.
  Lemma parts_all n l : Forall (λ x, f x < n) l → ForallOrdPairs (λ x y, f x ≤ f y) l → concat (map (part l) (seq 0 n)) = l.
  Proof.
    intros Hn Hl. induction Hl as [|x l Hx Hl IH]; [clear Hn; generalize 0; induction n as [|n IH]; intros m; [done|]; cbn [seq map concat]; apply IH|].
    apply Forall_cons in Hn as [Hxn Hn]. specialize (IH Hn). replace n with (f x + S (n - S (f x))) in IH |- * by lia.
    rewrite seq_app, map_app, concat_app in IH |- *. cbn [plus seq map concat] in IH |- *.
    rewrite nones in IH |- * by (try constructor; try (eapply Forall_impl; [exact Hx|]); intros; cbn in *; lia).
    rewrite parts_same by lia. rewrite part_cons, decide_True by done. cbn [app] in IH |- *. by rewrite IH.
  Qed.
End parts.

Section arrange.
  Context `{Profile} {K V : Type} (keq : K → K → bool) (hash : K → N) (HL : HashLaws keq hash) (nb ms : nat) (d : K * V).
  Context (h0 : htable K V) (Hnew : ht_new nb ms d = Some h0) (Hnb : 0 < nb) (Hw : (N.of_nat ms + 1 < W32)%N).
  Notation tables o := (spec_history (hb_spec keq hash (N.of_nat ms)) o (replicate nb [])).2.
  Notation after o := (history (ht_step keq hash) o h0).2.
  Notation bucket := (λ x : K * V, N.to_nat (hash x.1 mod N.of_nat nb)).

  Lemma keys_room (o : list (hm_op K V)) : length (keys_after keq (N.of_nat ms) o) ≤ ms.
  Proof using Type.
    clear Hw Hnew Hnb HL. unfold keys_after. assert (length (@nil K) ≤ ms) as H0 by (cbn; lia). revert H0. generalize (@nil K).
    induction o as [|c o IH]; intros l Hl; [done|]. cbn [fold_left]. apply IH. destruct c as [k v|k|k|k f|k|k| | | |k|k f|n|fs]; cbn [keys_step]; try done.
    - destruct (existsb (λ x, keq x k) l); [done|]. destruct (decide (lengthN l < N.of_nat ms)%N) as [Hd|]; [|done]. unfold lengthN in Hd. cbn [length]. lia.
    - etrans; [apply filter_length|done].
  Qed.
  Lemma dk_fmap (l : list (K * V)) : ForallOrdPairs (λ x y, keq x y = false) l.*1 → distinct_keys keq l.
  Proof using Type.
    unfold distinct_keys. induction l as [|x l IH]; intros Hl; [constructor|]. rewrite fmap_cons in Hl. inversion Hl as [|? ? Hx Hl']; subst. constructor; [|by apply IH].
    by apply Forall_fmap in Hx.
  Qed.
  Lemma fop_perm (l l' : list K) : l ≡ₚ l' → ForallOrdPairs (λ x y, keq x y = false) l → ForallOrdPairs (λ x y, keq x y = false) l'.
  Proof using HL.
    induction 1 as [|x l l' Hp IH|x y l|l1 l2 l3 H1 IH1 H2 IH2]; [done| | |by auto].
    - intros Hx. inversion Hx; subst. constructor; [|by apply IH]. by rewrite <- Hp.
    - intros Hx. inversion Hx as [|? ? Hy Hx']; subst. inversion Hx' as [|? ? Hz Hx'']; subst. apply Forall_cons in Hy as [Hyx Hy].
      constructor; [|constructor; done]. constructor; [by rewrite (keq_sym _ _ HL)|done].
  Qed.
  Lemma reach_arranged (o : list (hm_op K V)) : arranged keq hash nb ms (concat (tables o)).
  Proof using HL Hnb.
    clear Hw Hnew. destruct (history_good (V := V) keq hash HL nb Hnb (N.of_nat ms) o (replicate nb [])) as [[[E Hp] _] Hk]; [apply new_good|].
    assert ((concat (tables o)).*1 ≡ₚ keys_after keq (N.of_nat ms) o) as Hk'.
    { rewrite Hk. unfold keys_after. assert ((concat (replicate nb (@nil (K * V)))).*1 = []) as ->; [|done]. clear. induction nb; done. }
    unfold arranged. split_and!.
    - rewrite <- (fmap_length fst), Hk'. apply keys_room.
    - apply dk_fmap. eapply fop_perm; [symmetry; exact Hk'|]. by eapply keys_distinct.
    - revert E Hp. generalize (tables o). intros T E Hp.
      assert (∀ j c x, T !! j = Some c → x ∈ c → N.to_nat (hash x.1 mod N.of_nat nb) = j) as Hp'.
      { intros j c x Hj Hx. specialize (Hp j c x Hj Hx). unfold hb_index, lengthN in Hp. by rewrite E in Hp. }
      clear Hp E Hk Hk'. assert (∀ lo, (∀ j c x, T !! j = Some c → x ∈ c → N.to_nat (hash x.1 mod N.of_nat nb) = lo + j) →
        ForallOrdPairs (λ x y, hash x.1 mod N.of_nat nb ≤ hash y.1 mod N.of_nat nb)%N (concat T)) as Hgen; [|by apply (Hgen 0)].
      clear Hp'. induction T as [|c T IH]; intros lo Hp; [constructor|]. cbn [concat]. apply FOP_app.
      + assert (∀ x, x ∈ c → N.to_nat (hash x.1 mod N.of_nat nb) = lo) as Hc by (intros x Hx; rewrite (Hp 0 c x) by done; lia). clear - Hc.
        induction c as [|x c IH]; [constructor|]. constructor; [|apply IH; intros y Hy; apply Hc; by right]. apply Forall_forall. intros y Hy.
        pose proof (Hc x ltac:(left)). pose proof (Hc y ltac:(by right)). lia.
      + apply (IH (S lo)). intros j c' x Hj Hx. rewrite (Hp (S j) c' x) by done. lia.
      + apply Forall_forall. intros x Hx. apply Forall_forall. intros y Hy. apply elem_of_list_In, in_concat in Hy as (c' & Hc' & Hy).
        apply elem_of_list_In in Hc', Hy. apply elem_of_list_lookup in Hc' as [j Hj]. pose proof (Hp 0 c x eq_refl Hx). pose proof (Hp (S j) c' y Hj Hy). lia.
  Qed.

  Notation ins l := (map (λ x : K * V, HInsert x.1 x.2) (rev l)).
  Notation split_into l := (map (part bucket l) (seq 0 nb)).
  Lemma spec_history_snoc {S O A} (step : O → S → A * S) o1 o s : (spec_history step (o1 ++ [o]) s).2 = (step o (spec_history step o1 s).2).2.
  Proof using Type.
    revert s. induction o1 as [|o' o1 IH]; intros s; cbn [app spec_history]; [cbn [snd]; by destruct (step o s)|].
    destruct (step o' s) as [r s1]. specialize (IH s1). destruct (spec_history step (o1 ++ [o]) s1), (spec_history step o1 s1). done.
  Qed.
  Lemma ins_table (l : list (K * V)) : length l ≤ ms → distinct_keys keq l → tables (ins l) = split_into l.
  Proof using HL Hnb.
    clear Hw Hnew. induction l as [|x l IH]; intros Hlen Hd.
    - cbn [rev map spec_history snd]. apply list_eq. intros j. rewrite list_lookup_fmap. destruct (decide (j < nb)) as [Hj|Hj].
      + rewrite lookup_replicate_2, lookup_seq_lt by done. done.
      + rewrite !(proj2 (lookup_ge_None _ _)); [done|rewrite seq_length; lia|rewrite replicate_length; lia].
    - cbn [length] in Hlen. apply (dk_cons keq hash HL) in Hd as [Hx Hd]. specialize (IH ltac:(lia) Hd). cbn [rev]. rewrite map_app. cbn [map].
      pose proof (history_good (V := V) keq hash HL nb Hnb (N.of_nat ms) (ins l) (replicate nb [])) as [[[E Hp] HD] Hk]; [apply new_good|].
      rewrite spec_history_snoc. rewrite IH in E, Hp |- *. cbn [hb_spec]. unfold hb_insert.
      assert (hb_index hash (split_into l) x.1 = bucket x) as Ei by (unfold hb_index, lengthN; by rewrite E).
      assert (bucket x < nb) as Hbx by (pose proof (N.mod_upper_bound (hash x.1) (N.of_nat nb) ltac:(lia)); cbn; lia).
      assert (hb_chain hash (split_into l) x.1 = part bucket l (bucket x)) as Ec.
      { unfold hb_chain. rewrite Ei, list_lookup_fmap, lookup_seq_lt by done. done. }
      rewrite Ec. destruct (hb_split keq x.1 (part bucket l (bucket x))) as [[[c1 y] c2]|] eqn:Es.
      { exfalso. apply split_keys in Es as [Es Ey]. assert (y ∈ part bucket l (bucket x)) as Hy by (rewrite Es; apply elem_of_app; right; left).
        apply elem_of_list_filter in Hy as [_ Hy]. rewrite Forall_forall in Hx. rewrite (Hx y Hy) in Ey. done. }
      assert (lengthN (concat (split_into l)) = N.of_nat (length l)) as El.
      { unfold lengthN. f_equal. assert (∀ l : list (K * V), length (concat (split_into l)) = length l) as Hc; [|by apply Hc]. clear - Hnb. intros l.
        induction l as [|x l IH].
        - clear. generalize 0. induction nb as [|n IH]; intros m; [done|]. cbn [seq map concat]. rewrite app_length, IH. done.
        - assert (bucket x < nb) as Hbx by (pose proof (N.mod_upper_bound (hash x.1) (N.of_nat nb) ltac:(lia)); cbn; lia).
          cbn [length]. rewrite <- IH. clear IH.
          assert (∀ n lo, lo ≤ bucket x < lo + n → length (concat (map (part bucket (x :: l)) (seq lo n))) = S (length (concat (map (part bucket l) (seq lo n))))) as Hg.
          { induction n as [|n IHn]; intros lo Hb; [lia|]. cbn [seq map concat]. rewrite part_cons. destruct (decide (bucket x = lo)) as [Heq|Hne].
            - rewrite parts_same by lia. cbn [app length]. done.
            - cbn [app]. rewrite !app_length, IHn by lia. lia. }
          apply Hg. split; [apply Nat.le_0_l|exact Hbx]. }
      rewrite El, decide_True by lia. cbn [snd]. unfold hb_put. rewrite Ei. apply list_eq. intros j. destruct (decide (j = bucket x)) as [->|Hne].
      + rewrite list_lookup_insert by (by rewrite E). rewrite list_lookup_fmap, lookup_seq_lt by done. cbn [fmap option_fmap option_map]. rewrite part_cons, decide_True by done. by destruct x.
      + rewrite list_lookup_insert_ne by done. rewrite !list_lookup_fmap. destruct (decide (j < nb)) as [Hj|Hj].
        * rewrite lookup_seq_lt by done. cbn [fmap option_fmap option_map plus]. by rewrite part_cons, decide_False by done.
        * by rewrite (proj2 (lookup_ge_None (seq 0 nb) j)) by (rewrite seq_length; lia).
  Qed.
  (** ** [get_mut] alone can bring the pairs of a table into any order in their buckets *)
  Lemma part_app (l1 l2 : list (K * V)) j : part bucket (l1 ++ l2) j = part bucket l1 j ++ part bucket l2 j.
  Proof using Type. apply filter_app. Qed.
  Lemma part_all (l : list (K * V)) j : (∀ x, x ∈ l → bucket x = j) → part bucket l j = l.
  Proof using Type.
    clear Hnb Hw Hnew. intros Hl. induction l as [|x l IH]; [done|]. rewrite part_cons, decide_True by (apply Hl; left). cbn. f_equal. apply IH. intros y Hy. apply Hl. by right.
  Qed.
  Lemma part_nil (l : list (K * V)) j : (∀ x, x ∈ l → bucket x ≠ j) → part bucket l j = [].
  Proof using Type.
    clear Hnb Hw Hnew. intros Hl. induction l as [|x l IH]; [done|]. rewrite part_cons, decide_False by (apply Hl; left). cbn. apply IH. intros y Hy. apply Hl. by right.
  Qed.
  Lemma split_concat (T : list (list (K * V))) : ∀ lo, (∀ j c x, T !! j = Some c → x ∈ c → bucket x = lo + j) → map (part bucket (concat T)) (seq lo (length T)) = T.
  Proof using Type.
    clear Hnb Hw Hnew. induction T as [|c T IH]; intros lo HT; [done|]. cbn [length seq map concat].
    assert (∀ x, x ∈ c → bucket x = lo) as Hc by (intros x Hx; rewrite (HT 0 c x) by done; lia).
    assert (∀ j c' x, T !! j = Some c' → x ∈ c' → bucket x = S lo + j) as HT' by (intros j c' x Hj Hx; rewrite (HT (S j) c' x) by done; lia).
    rewrite part_app, (part_all c), (part_nil (concat T)), app_nil_r; [|  |done].
    - f_equal. etrans; [|exact (IH _ HT')]. apply map_ext_in. intros j Hj. apply in_seq in Hj. rewrite part_app, (part_nil c); [done|]. intros x Hx. rewrite (Hc x Hx). lia.
    - intros x Hx. apply elem_of_list_In, in_concat in Hx as (c' & Hc' & Hx). apply elem_of_list_In in Hc', Hx. apply elem_of_list_lookup in Hc' as [j Hj].
      rewrite (HT' j c' x) by done. lia.
  Qed.
  Lemma dk_same (l : list (K * V)) x y : distinct_keys keq l → x ∈ l → y ∈ l → keq x.1 y.1 = true → x = y.
  Proof using HL.
    clear Hnb Hw Hnew. induction l as [|z l IH]; intros Hd Hx Hy He; [by apply elem_of_nil in Hx|]. apply (dk_cons keq hash HL) in Hd as [Hz Hd]. rewrite Forall_forall in Hz.
    apply elem_of_cons in Hx as [->|Hx]; apply elem_of_cons in Hy as [->|Hy]; [done| | |by apply IH].
    - specialize (Hz y Hy). rewrite (keq_sym _ _ HL) in Hz. congruence.
    - specialize (Hz x Hx). congruence.
  Qed.
  Notation moves s := (map (λ x : K * V, HGetMut x.1 (λ v, v)) (rev s)).
  Lemma moves_ok T l' : distinct_keys keq l' → length T = nb → (∀ j c, T !! j = Some c → c ≡ₚ part bucket l' j) → ∀ s l0, l' = l0 ++ s →
    length (spec_history (hb_spec keq hash (N.of_nat ms)) (moves s) T).2 = nb ∧
    ∀ j c, (spec_history (hb_spec keq hash (N.of_nat ms)) (moves s) T).2 !! j = Some c → c ≡ₚ part bucket l' j ∧ ∃ rest, c = part bucket s j ++ rest.
  Proof using HL Hnb.
    clear Hw Hnew. intros Hd E HT. induction s as [|x s IH]; intros l0 El.
    { split; [done|]. intros j c Hj. split; [by apply HT|]. by exists c. }
    destruct (IH (l0 ++ [x])) as [IHl IHc]; [by rewrite <- app_assoc|]. clear IH. cbn [rev]. rewrite map_app. cbn [map]. rewrite spec_history_snoc.
    revert IHl IHc. generalize (spec_history (hb_spec keq hash (N.of_nat ms)) (moves s) T).2. clear HT E T. intros T E HT. cbn [hb_spec snd]. unfold hb_get_mut.
    assert (hb_index hash T x.1 = bucket x) as Ei by (unfold hb_index, lengthN; by rewrite E).
    pose proof (chain_some hash nb Hnb T x.1 E) as Hc. rewrite Ei in Hc. revert Hc. generalize (hb_chain hash T x.1). intros c Hc.
    destruct (HT _ _ Hc) as [Hperm [rest Erest]].
    assert (x ∈ l') as Hxl by (rewrite El; apply elem_of_app; right; left).
    assert (x ∈ c) as Hxc by (rewrite Hperm; by apply elem_of_list_filter).
    assert (x ∉ s) as Hxs.
    { intros Hxs. subst l'. unfold distinct_keys in Hd. clear - Hd Hxs HL. induction l0 as [|y l0 IH]; [|inversion Hd; by apply IH].
      inversion Hd as [|? ? Hx _]; subst. rewrite Forall_forall in Hx. specialize (Hx x Hxs). by rewrite (keq_refl _ _ HL) in Hx. }
    destruct (hb_split keq x.1 c) as [[[c1 y] c2]|] eqn:Es.
    2:{ exfalso. apply split_absent in Es. rewrite Forall_forall in Es. specialize (Es x.1 (elem_of_list_fmap_1 fst _ _ Hxc)). by rewrite (keq_refl _ _ HL) in Es. }
    apply split_keys in Es as [Es Ey]. assert (y = x) as ->.
    { apply (dk_same l'); [done| |done|done]. assert (y ∈ c) as Hyc by (rewrite Es; apply elem_of_app; right; left). rewrite Hperm in Hyc. by apply elem_of_list_filter in Hyc as [_ ?]. }
    assert (∃ c1', c1 = part bucket s (bucket x) ++ c1') as [c1' Ec1].
    { rewrite Es in Erest. apply (prefix_before _ _ _ _ _ Erest). intros Hin. apply elem_of_list_filter in Hin as [_ ?]. done. }
    unfold hb_put. rewrite Ei. split; [by rewrite insert_length|]. intros j cj Hj. destruct (decide (j = bucket x)) as [->|Hne].
    - rewrite list_lookup_insert in Hj by (rewrite E; eapply lookup_lt_Some in Hc; by rewrite E in Hc). injection Hj as <-. replace (x.1, x.2) with x by (by destruct x). split.
      + rewrite <- Hperm, Es. by rewrite Permutation_middle.
      + exists (c1' ++ c2). rewrite part_cons, decide_True by done. rewrite Ec1. cbn [app]. by rewrite <- app_assoc.
    - rewrite list_lookup_insert_ne in Hj by done. destruct (HT _ _ Hj) as [Hp [rest' ->]]. split; [done|]. exists rest'. rewrite part_cons, decide_False by done. done.
  Qed.
  Lemma spec_history_app2 {S O A} (step : O → S → A * S) o1 o2 s : (spec_history step (o1 ++ o2) s).2 = (spec_history step o2 (spec_history step o1 s).2).2.
  Proof using Type.
    clear Hnb Hw Hnew HL. revert s. induction o1 as [|o' o1 IH]; intros s; cbn [app spec_history]; [done|].
    destruct (step o' s) as [r s1]. specialize (IH s1). destruct (spec_history step (o1 ++ o2) s1), (spec_history step o1 s1). done.
  Qed.
  Lemma get_mut_fact (o : list (hm_op K V)) (l l' : list (K * V)) : (∀ script, ht_iterate (after o) script = Val (fw_spec script l)) →
    arranged keq hash nb ms l' → l' ≡ₚ l →
    ∃ ks, ∀ script, ht_iterate (after (o ++ map (λ k, HGetMut k (λ v, v)) ks)) script = Val (fw_spec script l').
  Proof using HL Hnew Hnb Hw.
    intros Ho (H1 & H2 & H3) Hp. assert (l = concat (tables o)) as ->.
    { apply fw_inj. intros script. specialize (Ho script). rewrite (order_iter_fact keq hash nb ms d h0 Hnew Hnb Hw o script) in Ho. by injection Ho. }
    destruct (history_good (V := V) keq hash HL nb Hnb (N.of_nat ms) o (replicate nb [])) as [[[E HT] _] _]; [apply new_good|].
    exists (map fst (rev l')). intros script. rewrite (order_iter_fact keq hash nb ms d h0 Hnew Hnb Hw _ script). do 2 f_equal. rewrite map_map.
    rewrite spec_history_app2. clear Ho. revert E HT Hp. generalize (tables o). intros T E HT Hp.
    assert (∀ j c x, T !! j = Some c → x ∈ c → bucket x = 0 + j) as HT'.
    { intros j c x Hj Hx. specialize (HT j c x Hj Hx). unfold hb_index, lengthN in HT. by rewrite E in HT. }
    pose proof (split_concat T 0 HT') as Hs. rewrite E in Hs.
    destruct (moves_ok T l' H2 E) with (s := l') (l0 := @nil (K * V)) as [El Hall]; [|done|].
    { intros j c Hj. rewrite <- Hs, list_lookup_fmap in Hj. destruct (seq 0 nb !! j) as [i|] eqn:Ej; [|done]. apply lookup_seq in Ej as [-> _]. injection Hj as <-.
      unfold part. by rewrite Hp. }
    revert El Hall. generalize (spec_history (hb_spec keq hash (N.of_nat ms)) (moves l') T).2. intros T2 El Hall.
    assert (T2 = split_into l') as ->.
    { apply list_eq. intros j. rewrite list_lookup_fmap. destruct (decide (j < nb)) as [Hj|Hj].
      - rewrite lookup_seq_lt by done. cbn [fmap option_fmap option_map plus]. destruct (lookup_lt_is_Some_2 T2 j) as [c Hc]; [by rewrite El|]. rewrite Hc. f_equal.
        destruct (Hall j c Hc) as [Hpj [rest ->]]. apply Permutation_length in Hpj. rewrite app_length in Hpj. destruct rest; [by rewrite app_nil_r|cbn in Hpj; lia].
      - rewrite !(proj2 (lookup_ge_None _ _)); [done|rewrite seq_length; lia|rewrite El; lia]. }
    apply parts_all.
    + apply Forall_forall. intros x _. pose proof (N.mod_upper_bound (hash x.1) (N.of_nat nb) ltac:(lia)). cbn. lia.
    + clear - H3. induction H3 as [|x l Hx Hl IH]; constructor; [|done]. eapply Forall_impl; [exact Hx|]. cbn. intros. lia.
  Qed.
  Lemma arranged_fact (l : list (K * V)) :
    (∃ o, ∀ script, ht_iterate (after o) script = Val (fw_spec script l)) ↔ arranged keq hash nb ms l.
  Proof using HL Hnew Hnb Hw.
    split.
    - intros (o & Ho). assert (l = concat (tables o)) as ->; [|apply reach_arranged]. apply fw_inj. intros script. specialize (Ho script).
      rewrite (order_iter_fact keq hash nb ms d h0 Hnew Hnb Hw o script) in Ho. by injection Ho.
    - intros (H1 & H2 & H3). exists (ins l). intros script. rewrite (order_iter_fact keq hash nb ms d h0 Hnew Hnb Hw _ script). rewrite (ins_table l H1 H2).
      rewrite parts_all; [done| |].
      + apply Forall_forall. intros x _. pose proof (N.mod_upper_bound (hash x.1) (N.of_nat nb) ltac:(lia)). cbn. lia.
      + clear - H3. induction H3 as [|x l Hx Hl IH]; constructor; [|done]. eapply Forall_impl; [exact Hx|]. cbn. intros. lia.
  Qed.
End arrange.
