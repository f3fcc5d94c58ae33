(** * C70: overwriting keys — the hash table *)
From Verif Require Import Spec HashMain TypedProof.
From Verif Require Export RekeyProof.

Section ht.
  Context `{Profile} {K V : Type} (keq : K → K → bool) (hash : K → N) (HL : HashLaws keq hash) (nb ms : nat) (Hw : N.of_nat ms + 1 < W32).
  Notation cap := (N.of_nat ms).
  Notation HI := (HI keq hash cap).
  Notation I h l := (TH nb ms h ∧ ∃ E, HI h E ∧ E.*2 = l).
  Notation fits := (fits_bucket keq hash (N.of_nat nb)).
  Lemma th_set_node_key i k : typed (TH nb ms) (ht_set_node_key (K:=K) (V:=V) i k).
  Proof.
    apply th_on, ty_get_mut. intros n (Hl & Hr & Ht). split; [done|]. by split.
  Qed.
  Lemma ht_rekey_ok k k' (h : htable K V) l :
    I h l → may_rekey keq fits l k k' = true →
    ∃ i kv h', ht_get_addr keq hash h k = Val i ∧ ht_get_node h i = Val kv ∧ ht_set_node_key i k' h = Ret () h' ∧
      kv ∈ l ∧ keq kv.1 k = true ∧ I h' (rekeyed keq k k' l).
  Proof using HL Hw.
    intros (HT & E & Hi & <-) Hm. pose proof (HI_keys _ _ HL _ _ _ Hi) as Hd.
    destruct (HI_case _ _ HL _ _ _ k Hi) as [(i & kv & R & HR & Hk & Hn)|Hn].
    2:{ exfalso. apply may_present in Hm as (kv & (e & -> & Hin)%elem_of_list_fmap & Hk). rewrite Forall_forall in Hn.
        specialize (Hn _ Hin). cbn in Hn. congruence. }
    destruct (ht_found _ _ HL _ _ _ _ _ _ _ Hi HR Hk) as (_ & _ & _ & Had & Hnode & _).
    apply andb_prop in Hm as [_ Hf]. rewrite forallb_forall in Hf.
    assert (∀ x, x ∈ (i, kv) :: R → fits x.2.1 k k' = true) as Hf'.
    { intros x Hx. apply Hf, elem_of_list_In, elem_of_list_fmap. exists x. split; [done|]. by rewrite HR. }
    destruct Hi as (bs & Hok & Hp).
    destruct (loc_found _ _ HL _ _ _ _ _ _ _ _ Hok Hp HR Hk) as (es1 & es2 & Hb & Hes & HRp).
    pose proof (HOK_bk_len _ _ _ _ _ Hok) as Hbl. rewrite (th_len _ _ _ HT) in Hbl.
    set (E' := map (λ e : N * (K * V), (e.1, if keq e.2.1 k then (k', e.2.2) else e.2)) E).
    assert (E' ≡ₚ (i, (k', kv.2)) :: R) as HE'.
    { unfold E'. rewrite HR. rewrite map_cons. cbn [fst snd]. rewrite Hk. apply Permutation_cons; [done|].
      assert (map (λ e : N * (K * V), (e.1, if keq e.2.1 k then (k', e.2.2) else e.2)) R = R) as ->; [|done].
      clear -Hn. induction Hn as [|[j x] R Hx _ IH]; [done|]. cbn [map fst snd] in *. by rewrite Hx, IH. }
    assert (E'.*2 = rekeyed keq k k' E.*2) as HE2.
    { unfold E', rekeyed. clear. induction E as [|[j x] E IH]; [done|]. cbn [map fmap list_fmap fst snd]. f_equal. exact IH. }
    assert (wp (ht_set_node_key i k') h (λ _ h', HI h' E')) as Hwp.
    { unfold ht_set_node_key. apply ht_on_wp. pose proof (ho_heap _ _ _ _ _ Hok) as Hh. rewrite (hcells_focus' _ _ _ Hb) in Hh.
      rewrite hseg_app in Hh. cbn [hseg] in Hh. rewrite <- app_assoc in Hh. cbn [app] in Hh.
      eapply CH_perm in Hh; [|symmetry; apply Permutation_middle].
      eapply CH_get_mut; [exact _|exact Hh|done|]. cbn [regs val]. intros a' Ha'.
      assert (CH 4 cap a' (hseg 0 (es1 ++ (i, (k', kv.2)) :: es2) 0 ++ hoth (bk hash bs k) bs)) as Ha2.
      { eapply CH_perm; [exact Ha'|]. rewrite hseg_app. cbn [hseg]. rewrite <- app_assoc. cbn [app]. apply Permutation_middle. }
      eapply HI_update'; [exact HL|exact Hok|exact Hb|exact Ha2| | | |].
      - pose proof (ho_hash _ _ _ _ _ Hok _ _ Hb) as Hh2. rewrite !Forall_app, !Forall_cons in *. split_and!; [tauto| |tauto]. cbn [fst snd].
        specialize (Hf' (i, kv) ltac:(by left)). apply andb_prop in Hf' as [Hf' _]. apply bool_decide_eq_true in Hf'.
        rewrite Hbl in Hf'. change (N.of_nat (length bs)) with (lengthN bs) in Hf'. rewrite Hf'. apply (bk_hash _ _ HL), (keq_refl _ _ HL).
      - eapply (dk_perm keq hash HL ((i, (k', kv.2)) :: R).*2); [by rewrite HE'|]. cbn [fmap list_fmap snd]. apply (dk_cons keq hash HL). split.
        + apply Forall_forall. intros y (e & -> & He)%elem_of_list_fmap. cbn [fst].
          specialize (Hf' e ltac:(by right)). apply andb_prop in Hf' as [_ Hf'].
          rewrite Forall_forall in Hn. specialize (Hn e He). cbv beta in Hn. rewrite Hn in Hf'. by apply negb_true_iff in Hf'.
        + assert (distinct_keys keq ((i, kv) :: R).*2) as Hd2 by (eapply (dk_perm keq hash HL); [|exact Hd]; by rewrite HR).
          cbn [fmap list_fmap] in Hd2. by apply (dk_cons keq hash HL) in Hd2 as [_ ?].
      - rewrite HE', HRp. rewrite <- app_assoc. apply Permutation_middle.
      - by rewrite !fst0_app. }
    apply wp_elim in Hwp as ([] & h' & Hs & Hi').
    exists i, kv, h'. split_and!; [done|done|done| |done| |].
    - rewrite HR. cbn. by left.
    - pose proof (th_set_node_key i k' h HT) as Ht. rewrite Hs in Ht. by destruct Ht.
    - by exists E'.
  Qed.
  Lemma ht_rekey_run ops (h : htable K V) l :
    I h l →
    k_run (hm_step keq cap) keq fits ops l
      (history (k_step (ht_step keq hash) (ht_get_addr keq hash) ht_get_node ht_set_node_key) ops h).1.
  Proof using HL Hw.
    intros Hi. apply (k_run_ok _ _ _ _ _ _ _ (λ _, True) (λ t l, I t l)); [| |by apply Forall_true|done].
    - intros o s l0 _ (HT & E & HE & <-). destruct (ht_step_ok keq hash HL cap o s E HE) as (E' & HE' & Hr & _).
      exists E'.*2. split; [done|]. split; [|by exists E'].
      pose proof (th_step keq hash nb ms Hw o s HT) as Ht. unfold call. by destruct (ht_step keq hash o s).
    - intros k k' s l0 _. apply ht_rekey_ok.
  Qed.
End ht.
