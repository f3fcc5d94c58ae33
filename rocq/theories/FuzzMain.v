(** * The fuzz targets on the four maps (for C55) *)
From Verif Require Import FuzzModel FuzzProof HashMain.

Lemma lengthN_fmap {A B} (f : A → B) (l : list A) : lengthN (f <$> l) = lengthN l.
Proof. unfold lengthN. by rewrite fmap_length. Qed.

(** ** HashTable *)
Section hash.
  Context `{Profile} {K V : Type} (keq : K → K → bool) (hash : K → N) (HL : HashLaws keq hash) (cap : N).
  Implicit Types l : list (K * V).
  Definition hs_rep (h : htable K V) (g : K → option V) (n : N) : Prop :=
    ∃ E, HI keq hash cap h E ∧ n = lengthN E ∧ ∀ k, g k = hm_get keq k E.*2.

  Lemma hm_get_alter k k' f l : hm_get keq k' (hm_alter keq k f l) = if keq k k' then f <$> hm_get keq k l else hm_get keq k' l.
  Proof using HL.
    unfold hm_get, hm_alter. induction l as [|x l IH]; cbn [map hm_find]; [by destruct (keq k k')|].
    destruct (keq x.1 k) eqn:Ex; cbn [fst].
    - destruct (keq k k') eqn:E.
      + by rewrite (keq_trans _ _ HL _ _ _ Ex E).
      + destruct (keq x.1 k') eqn:E'; [|exact IH]. rewrite (keq_trans _ _ HL k x.1 k') in E; [done| |done]. by rewrite (keq_sym _ _ HL).
    - destruct (keq x.1 k') eqn:E'; [|exact IH]. destruct (keq k k') eqn:E; [|done].
      rewrite (keq_trans _ _ HL x.1 k' k) in Ex; [done|done|]. by rewrite (keq_sym _ _ HL).
  Qed.
  Lemma hm_get_remove k k' l : hm_get keq k' (hm_remove keq k l) = if keq k k' then None else hm_get keq k' l.
  Proof using HL.
    unfold hm_get, hm_remove. induction l as [|x l IH]; cbn [List.filter hm_find]; [by destruct (keq k k')|].
    destruct (keq x.1 k) eqn:Ex; cbn [negb hm_find].
    - rewrite IH. destruct (keq k k') eqn:E; [done|].
      destruct (keq x.1 k') eqn:E'; [|done]. rewrite (keq_trans _ _ HL k x.1 k') in E; [done| |done]. by rewrite (keq_sym _ _ HL).
    - destruct (keq x.1 k') eqn:E'; [|exact IH]. destruct (keq k k') eqn:E; [|done].
      rewrite (keq_trans _ _ HL x.1 k' k) in Ex; [done|done|]. by rewrite (keq_sym _ _ HL).
  Qed.
  Lemma hm_get_keq k k' l : keq k k' = true → hm_get keq k l = hm_get keq k' l.
  Proof using HL.
    intros E. unfold hm_get. f_equal. induction l as [|x l IH]; [done|]. cbn. rewrite IH.
    destruct (keq x.1 k) eqn:Ex; [by rewrite (keq_trans _ _ HL _ _ _ Ex E)|].
    destruct (keq x.1 k') eqn:Ex'; [|done]. rewrite (keq_trans _ _ HL x.1 k' k) in Ex; [done|done|]. by rewrite (keq_sym _ _ HL).
  Qed.
  Lemma hm_get_cons k v k' l : hm_get keq k' ((k, v) :: l) = if keq k k' then Some v else hm_get keq k' l.
  Proof using Type. unfold hm_get. cbn. by destruct (keq k k'). Qed.
  Lemma hm_remove_len k l x : distinct_keys keq l → hm_find keq k l = Some x → lengthN l = lengthN (hm_remove keq k l) + 1.
  Proof using HL.
    unfold lengthN. induction l as [|y l IH]; [done|]. intros [Hf Hd]%(dk_cons _ _ HL). cbn. destruct (keq y.1 k) eqn:E.
    - intros _. cbn. assert (hm_remove keq k l = l) as Hr; [|unfold hm_remove in *; rewrite Hr; lia].
      unfold hm_remove. clear -Hf E HL. induction Hf as [|z l Hz _ IH]; [done|]. cbn. destruct (keq z.1 k) eqn:Ez; cbn; [|by rewrite IH].
      rewrite (keq_trans _ _ HL z.1 k y.1) in Hz; [done|done|]. by rewrite (keq_sym _ _ HL).
    - intros Hx. cbn. specialize (IH Hd Hx). unfold hm_remove in IH. lia.
  Qed.
  Lemma fw_mut_spec_same {A} (u : (V → V) → A → A) m e (l : list A) :
    (∀ x, u (λ v, v) x = x) → (fw_mut_spec u (replicate m (e, λ v, v)) l).2 = l.
  Proof using Type.
    intros Hu. revert l. induction m as [|m IH]; intros l; [done|]. destruct e; cbn [replicate fw_mut_spec].
    - destruct l as [|x l].
      + specialize (IH []). destruct (fw_mut_spec _ _ _). done.
      + specialize (IH l). destruct (fw_mut_spec _ _ _). cbn in *. by rewrite IH, Hu.
    - specialize (IH l). destruct (fw_mut_spec _ _ _). done.
  Qed.
  Lemma until_none_fw {A} m e (l : list A) : (length l < m)%nat → ∃ xs, until_none (fw_spec (replicate m e) l) = Val xs ∧ ∀ x, x ∈ xs → x ∈ l.
  Proof using Type.
    intros Hl. destruct e.
    - rewrite fw_spec_fwd. destruct (until_none_de m Fwd l Hl) as (xs & ? & Hp). exists xs. split; [done|]. intros x. by rewrite Hp.
    - destruct m as [|m]; [lia|]. exists []. split; [done|]. by intros x ?%elem_of_nil.
  Qed.

  Lemma hs_ok `{EqDecision V} : fz_ok (ht_nam keq hash) keq (λ _, True) cap true hs_rep.
  Proof using HL.
    assert (∀ o h (E : list (N * (K * V))), HI keq hash cap h E → ∃ r h' E', call (ht_step keq hash o) h = (r, h') ∧ HI keq hash cap h' E' ∧ hm_step keq cap o E.*2 r E'.*2) as Hstep.
    { intros o h E Hi. destruct (ht_step_ok keq hash HL cap o h E Hi) as (E' & Hi' & Hs & _).
      exists (call (ht_step keq hash o) h).1, (call (ht_step keq hash o) h).2, E'. split; [by destruct (call _ _)|done]. }
    split; cbn [ht_nam n_insert n_remove n_get n_get_mut n_len n_capacity n_iter n_iter_mut].
    - apply (keq_refl _ _ HL).
    - intros k k'. by rewrite (keq_sym _ _ HL).
    - apply (keq_trans _ _ HL).
    - intros h g g' n (E & Hi & -> & Hg) He. exists E. split_and!; [done|done|]. intros k. by rewrite He, Hg.
    - intros h g n k k' (E & Hi & -> & Hg) He. rewrite !Hg. by apply hm_get_keq.
    - intros h g n (E & Hi & -> & Hg). by eapply HI_len.
    - intros h g n k (E & Hi & -> & Hg) _. destruct (Hstep (HGet k) h E Hi) as (r & h' & E' & Hc & Hi' & Hs). inversion Hs; subst.
      unfold call, ht_step, mbind, M_bind, gets in Hc. rewrite Hg. destruct (ht_get keq hash h k); [|done]. by injection Hc as -> _.
    - intros h g n k v (E & Hi & -> & Hg) _ Hk. destruct (Hstep (HInsert k v) h E Hi) as (r & h' & E' & Hc & Hi' & Hs).
      rewrite Hg in Hk. unfold hm_get in Hk. unfold call, ht_step, mbind, M_bind in Hc.
      inversion Hs as [? ? ? x Hf| ? ? ? Hf Hl|? ? ? Hf Hl| | | | | | | | | | | |]; subst; rewrite Hf in Hk; [done|..].
      + destruct (ht_insert keq hash k v h) as [o h1|]; [|done]. injection Hc as Ho <-. exists o, h1. split; [done|].
        rewrite lengthN_fmap in Hl. rewrite decide_True by done. split; [by destruct o; [eauto|]|].
        exists E'. match goal with Hq : _ = E'.*2 |- _ => rename Hq into HE end. unfold hm_insert in HE. rewrite Hf in HE. split_and!; [done| |].
        * rewrite <- (lengthN_fmap snd E'), <- HE. unfold lengthN. simpl. rewrite fmap_length. lia.
        * intros k'. rewrite <- HE, hm_get_cons. unfold upd. by rewrite Hg.
      + destruct (ht_insert keq hash k v h) as [o h1|]; [|done]. injection Hc as Ho <-. exists o, h1. split; [done|].
        rewrite lengthN_fmap in Hl. rewrite decide_False by lia. split; [by destruct o|].
        exists E'. match goal with Hq : _ = E'.*2 |- _ => rename Hq into HE end. split_and!; [done| |].
        * by rewrite <- (lengthN_fmap snd E'), <- HE, lengthN_fmap.
        * intros k'. by rewrite <- HE.
    - intros h g n k v v0 (E & Hi & -> & Hg) _ Hk. destruct (Hstep (HInsert k v) h E Hi) as (r & h' & E' & Hc & Hi' & Hs).
      rewrite Hg in Hk. unfold hm_get in Hk. unfold call, ht_step, mbind, M_bind in Hc.
      inversion Hs as [? ? ? x Hf| ? ? ? Hf Hl|? ? ? Hf Hl| | | | | | | | | | | |]; subst; rewrite Hf in Hk; [|done..].
      destruct (ht_insert keq hash k v h) as [o h1|]; [|done]. injection Hc as Ho <-. exists o, h1. split; [done|].
      split; [by destruct o; [eauto|]|]. exists E'. match goal with Hq : _ = E'.*2 |- _ => rename Hq into HE end.
      unfold hm_insert in HE. rewrite Hf in HE. split_and!; [done| |].
      + rewrite <- (lengthN_fmap snd E'), <- HE. unfold lengthN, hm_alter. by rewrite map_length, fmap_length.
      + intros k'. rewrite <- HE, hm_get_alter. unfold upd. rewrite Hg. assert (hm_get keq k E.*2 = Some x.2) as -> by (unfold hm_get; by rewrite Hf). done.
    - intros h g n k f v0 (E & Hi & -> & Hg) _ Hk. destruct (Hstep (HGetMut k f) h E Hi) as (r & h' & E' & Hc & Hi' & Hs).
      rewrite Hg in Hk. unfold call, ht_step, mbind, M_bind in Hc. inversion Hs as [| | | | |? ? ? | | | | | | | | |]; subst.
      destruct (ht_get_mut keq hash k f h) as [o h1|]; [|done]. injection Hc as Ho <-. exists h1. rewrite Ho, Hk. split; [done|].
      exists E'. match goal with Hq : _ = E'.*2 |- _ => rename Hq into HE end. split_and!; [done| |].
      + rewrite <- (lengthN_fmap snd E'), <- HE. unfold lengthN, hm_alter. by rewrite map_length, fmap_length.
      + intros k'. rewrite <- HE, hm_get_alter, Hk. unfold upd. by rewrite Hg.
    - intros h g n k v0 (E & Hi & -> & Hg) _ Hk. destruct (Hstep (HRemove k) h E Hi) as (r & h' & E' & Hc & Hi' & Hs).
      rewrite Hg in Hk. unfold call, ht_step, mbind, M_bind in Hc. inversion Hs as [| | |? ? | | | | | | | | | | |]; subst.
      destruct (ht_remove keq hash k h) as [o h1|]; [|done]. injection Hc as Ho <-. exists h1. rewrite Ho, Hk. split; [done|].
      exists E'. match goal with Hq : _ = E'.*2 |- _ => rename Hq into HE end. split_and!; [done| |].
      + unfold hm_get in Hk. destruct (hm_find keq k E.*2) as [x|] eqn:Hf; [|done].
        pose proof (hm_remove_len k E.*2 x (HI_keys _ _ HL _ _ _ Hi) Hf) as Hl. rewrite HE, !lengthN_fmap in Hl. lia.
      + intros k'. rewrite <- HE, hm_get_remove. unfold upd. by rewrite Hg.
    - intros h g n e (E & Hi & -> & Hg). pose proof (HI_keys _ _ HL _ _ _ Hi) as Hd. pose proof (HI_len_le _ _ _ _ _ Hi) as Hl.
      unfold fz_calls. cbn [n_capacity ht_nam]. rewrite (HI_capacity _ _ _ _ _ Hi). destruct Hi as (bs & Hok & Hp).
      rewrite (ht_iterate_ok _ _ _ _ _ _ Hok). destruct (until_none_fw (N.to_nat (cap + 1)) e (concat bs).*2) as (xs & Hx & Hin).
      { rewrite <- Hp, fmap_length. unfold lengthN in Hl. lia. }
      do 2 eexists. split_and!; [done|exact Hx|]. intros kv Hkv. split; [done|]. rewrite Hg. unfold hm_get.
      rewrite (hm_find_in _ _ HL kv.1 E.*2 kv); [done|done| |apply (keq_refl _ _ HL)]. rewrite Hp. by apply Hin.
    - intros h g n e (E & Hi & -> & Hg). pose proof (HI_keys _ _ HL _ _ _ Hi) as Hd. pose proof (HI_len_le _ _ _ _ _ Hi) as Hl.
      unfold fz_calls. cbn [n_capacity ht_nam]. rewrite (HI_capacity _ _ _ _ _ Hi). destruct Hi as (bs & Hok & Hp).
      destruct (until_none_fw (N.to_nat (cap + 1)) e (concat bs)) as (xs & Hx & _).
      { rewrite <- Hp. unfold lengthN in Hl. lia. }
      set (sc := replicate (N.to_nat (cap + 1)) (e, λ v : V, v)).
      assert (wp (ht_iterate_mut sc) h (λ out h', out = fw_spec (replicate (N.to_nat (cap + 1)) e) (concat bs) ∧ hs_rep h' g (lengthN E))) as Hwp.
      { eapply ht_iterate_mut_ok; [done|exact _|exact Hok|]. intros h' bs' Hok' Hbs'. split.
        - rewrite fw_mut_spec_out. unfold sc. by rewrite fmap_replicate.
        - unfold sc in Hbs'. rewrite fw_mut_spec_same in Hbs' by by intros [? []]. exists E. split_and!; [|done|done].
          exists bs'. split; [done|]. by rewrite Hbs'. }
      destruct (wp_elim _ _ _ Hwp) as (out & h' & He & -> & HR). eauto 10.
  Qed.
End hash.

Section hash_main.
  Context `{Profile} {K V : Type} `{EqDecision V} (keq : K → K → bool) (hash : K → N) (HL : HashLaws keq hash) (nb ms : nat) (d : K * V).
  Context (h0 : htable K V) (Hnew : ht_new nb ms d = Some h0) (Hnb : (0 < nb)%nat) (Hw : N.of_nat ms + 1 < W32).
  Lemma ht_fuzz_fact (acts : list (fz_action K V * N)) :
    ∃ h ks, fuzz_hash keq hash acts (h0, []) = Ret () (h, ks) ∧ ht_len h = lengthN ks ∧ ForallOrdPairs (λ a b, keq a b = false) ks ∧
      ∀ k, (∃ v, ht_get keq hash h k = Val (Some v)) ↔ ∃ k', k' ∈ ks ∧ keq k' k = true.
  Proof using HL Hnew Hnb Hw.
    pose proof (hs_ok keq hash HL (N.of_nat ms) (V:=V)) as OK.
    assert (wp (fz_target (ht_nam keq hash) (λ _, Val true) acts) (h0, [])
      (λ _ st, fz_inv keq (λ _, True) (hs_rep keq hash (N.of_nat ms)) st.1 st.2)) as Hwp.
    { eapply (fz_target_ok _ _ _ _ _ _ OK); [done| | |by left].
      - eapply (fz_inv_nil _ _ _ _ (λ _, None)); [|done]. exists []. split_and!; [by eapply ht_new_ok|done|done].
      - apply Forall_forall. by intros []. }
    destruct (wp_elim _ _ _ Hwp) as ([] & [h ks] & He & Hinv). cbn [fst snd] in Hinv. exists h, ks. split; [exact He|].
    destruct (fz_inv_facts _ _ _ _ _ _ OK h ks Hinv) as (Hl & Hp & Hg). split_and!; [exact Hl|exact Hp|].
    intros k. destruct (Hg k I) as (o & Ho & Hks). cbn in Ho. rewrite Ho, <- Hks.
    split; [intros [v Hv]; injection Hv as ->; by eauto|]. intros [v ->]. by exists v.
  Qed.
End hash_main.
