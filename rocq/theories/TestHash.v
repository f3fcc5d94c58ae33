(** * [simulate] for HashTable (for C63) *)
From Verif Require Import FuzzModel FuzzProof HashMain FuzzMain.
From Verif Require Import MapProof TestModel TestProof.

Section hash.
  Context `{Profile} {K V : Type} `{EqDecision V} (keq : K → K → bool) (hash : K → N) (HL : HashLaws keq hash)
    (cmp : K → K → comparison) (HO : OrdLaws cmp) (Hc : ∀ a b, keq a b = true ↔ cmp a b = Eq) (cap : N).
  Implicit Types l : list (K * V).
  Definition hs_at (h : htable K V) l : Prop := ascending cmp l ∧ ∃ E, HI keq hash cap h E ∧ E.*2 ≡ₚ l.

  Lemma keq_false a b : keq a b = false ↔ cmp a b ≠ Eq.
  Proof using Hc. rewrite <- Hc. by destruct (keq a b). Qed.
  Lemma keq_cmp a b : keq a b = true ↔ cmp b a = Eq.
  Proof using Hc HL. by rewrite (keq_sym _ _ HL), Hc. Qed.
  Lemma below_ne k l : below cmp k l → Forall (λ x, keq x.1 k = false) l.
  Proof using Hc HL. intros Hb. eapply Forall_impl; [exact Hb|]. simpl. intros x Hx. rewrite (keq_sym _ _ HL). apply keq_false. congruence. Qed.
  Lemma above_ne k l : above cmp k l → Forall (λ x, keq x.1 k = false) l.
  Proof using Hc HL. intros Hb. eapply Forall_impl; [exact Hb|]. simpl. intros x Hx. rewrite (keq_sym _ _ HL). apply keq_false. congruence. Qed.
  Lemma find_same k l l' : distinct_keys keq l' → l' ≡ₚ l → ascending cmp l → hm_find keq k l' = om_find cmp k l.
  Proof using Hc HL HO.
    intros Hd Hp Ha. destruct (asc_cases cmp HO k l Ha) as [(l1 & x & l2 & -> & Hb & Hx & Hab)|(l1 & l2 & -> & Hb & Hab)].
    - rewrite om_find_found by done. apply (hm_find_in _ _ HL); [done|rewrite Hp; by apply elem_of_app; right; left|by apply keq_cmp].
    - rewrite om_find_absent by done. apply hm_find_None. rewrite Hp. apply Forall_app. split; [by apply below_ne|by apply above_ne].
  Qed.
  Lemma alter_ne k f l : Forall (λ x, keq x.1 k = false) l → hm_alter keq k f l = l.
  Proof using Type. unfold hm_alter. induction 1 as [|x l Hx _ IH]; [done|]. cbn. by rewrite Hx, IH. Qed.
  Lemma remove_ne k l : Forall (λ x, keq x.1 k = false) l → hm_remove keq k l = l.
  Proof using Type. unfold hm_remove. induction 1 as [|x l Hx _ IH]; [done|]. cbn. by rewrite Hx, IH. Qed.
  Lemma alter_same k f l l' : l' ≡ₚ l → ascending cmp l → hm_alter keq k f l' ≡ₚ om_alter cmp k f l.
  Proof using Hc HL HO.
    intros Hp Ha. unfold hm_alter. rewrite Hp. fold (hm_alter keq k f l).
    destruct (asc_cases cmp HO k l Ha) as [(l1 & x & l2 & -> & Hb & Hx & Hab)|(l1 & l2 & -> & Hb & Hab)].
    - rewrite om_alter_found by done. unfold hm_alter. rewrite map_app. cbn [map]. apply keq_cmp in Hx as ->.
      fold (hm_alter keq k f l1) (hm_alter keq k f l2). by rewrite (alter_ne k f l1 (below_ne _ _ Hb)), (alter_ne k f l2 (above_ne _ _ Hab)).
    - rewrite om_alter_absent by done. rewrite alter_ne; [done|]. apply Forall_app. split; [by apply below_ne|by apply above_ne].
  Qed.
  Lemma remove_same k l l' : l' ≡ₚ l → ascending cmp l → hm_remove keq k l' ≡ₚ om_remove cmp k l.
  Proof using Hc HL HO.
    intros Hp Ha. assert (hm_remove keq k l' ≡ₚ hm_remove keq k l) as ->.
    { unfold hm_remove. clear Ha. induction Hp as [|x l l' _ IH|x y l|l1 l2 l3 _ IH1 _ IH2]; cbn; [done|..].
      - destruct (negb _); by rewrite IH.
      - destruct (negb (keq x.1 k)), (negb (keq y.1 k)); try done. by constructor.
      - by rewrite IH1. }
    destruct (asc_cases cmp HO k l Ha) as [(l1 & x & l2 & -> & Hb & Hx & Hab)|(l1 & l2 & -> & Hb & Hab)].
    - rewrite om_remove_found by done. unfold hm_remove. rewrite List.filter_app. cbn [List.filter]. apply keq_cmp in Hx as ->. cbn [negb].
      fold (hm_remove keq k l1) (hm_remove keq k l2). by rewrite (remove_ne k l1 (below_ne _ _ Hb)), (remove_ne k l2 (above_ne _ _ Hab)).
    - rewrite om_remove_absent by done. rewrite remove_ne; [done|]. apply Forall_app. split; [by apply below_ne|by apply above_ne].
  Qed.
  Lemma insert_same k v l l' : distinct_keys keq l' → l' ≡ₚ l → ascending cmp l → hm_insert keq k v l' ≡ₚ om_insert cmp k v l.
  Proof using Hc HL HO.
    intros Hd Hp Ha. unfold hm_insert. rewrite (find_same k l l') by done.
    destruct (asc_cases cmp HO k l Ha) as [(l1 & x & l2 & -> & Hb & Hx & Hab)|(l1 & l2 & -> & Hb & Hab)].
    - rewrite om_find_found by done. rewrite (alter_same k (λ _, v) _ _ Hp Ha), om_alter_found, om_insert_found by done. done.
    - rewrite om_find_absent, om_insert_absent by done. rewrite Hp. solve_Permutation.
  Qed.
  Lemma asc_exists l : distinct_keys keq l → ∃ l', l' ≡ₚ l ∧ ascending cmp l'.
  Proof using Hc HL HO.
    induction l as [|x l IH]; [exists []; split; [done|constructor]|]. intros [Hf Hd]%(dk_cons _ _ HL). destruct (IH Hd) as (l' & Hp & Ha).
    destruct (sort_in_asc cmp HO x l' Ha) as [Hp' Ha'].
    - rewrite Hp. eapply Forall_impl; [exact Hf|]. simpl. intros y Hy. apply keq_false. by rewrite (keq_sym _ _ HL).
    - exists (sort_in cmp x l'). split; [|done]. by rewrite Hp', Hp.
  Qed.
  Lemma om_spec_asc (o : om_op K V) l : ascending cmp l → lengthN l ≤ cap → ascending cmp (om_spec cmp cap o l).2.
  Proof using HO.
    intros Ha Hl. assert (dom_op (λ _ : K, True) o) as Ho by by destruct o.
    destruct (om_spec_inv cmp HO (λ _, True) cap o l Ho) as (? & _); [|done]. split_and!; [done|done|]. by apply Forall_true.
  Qed.

  Lemma hs_sim : sim_ok (ht_nam keq hash) cmp (λ _, True) cap false hs_at.
  Proof using HL HO Hc.
    assert (∀ h l, hs_at h l → lengthN l ≤ cap) as Hcap.
    { intros h l (Ha & E & Hi & Hp). pose proof (HI_len_le _ _ _ _ _ Hi). unfold lengthN in *. by rewrite <- Hp, fmap_length. }
    assert (∀ o h l, hs_at h l → ∃ E r h' E', call (ht_step keq hash o) h = (r, h') ∧ HI keq hash cap h E ∧ HI keq hash cap h' E' ∧
      hm_step keq cap o E.*2 r E'.*2 ∧ distinct_keys keq E.*2 ∧ E.*2 ≡ₚ l) as Hstep.
    { intros o h l (Ha & E & Hi & Hp). destruct (ht_step_ok keq hash HL cap o h E Hi) as (E' & Hi' & Hs & _).
      exists E, (call (ht_step keq hash o) h).1, (call (ht_step keq hash o) h).2, E'. split; [by destruct (call _ _)|].
      split_and!; [done|done|done| |done]. by eapply HI_keys. }
    split; cbn [ht_nam n_insert n_remove n_get n_get_mut n_len n_capacity n_iter n_iter_mut].
    - intros h l Hr. split_and!; [apply Hr|by eapply Hcap|by apply Forall_true].
    - intros h l (Ha & E & Hi & Hp). rewrite (HI_len _ _ _ _ _ Hi). unfold lengthN. by rewrite <- Hp, fmap_length.
    - intros h l (Ha & E & Hi & Hp). by eapply HI_capacity.
    - intros h l k v Hr _ Hf. destruct (Hstep (HInsert k v) h l Hr) as (E & r & h' & E' & Hcl & Hi & Hi' & Hs & Hd & Hp). pose proof Hr as [Ha _].
      unfold call, ht_step, mbind, M_bind in Hcl. assert (lengthN E.*2 = lengthN l) as Hln by (unfold lengthN; by rewrite Hp).
      rewrite <- (find_same k l E.*2) in Hf by done.
      inversion Hs as [? ? ? x Hf'| ? ? ? Hf' Hl|? ? ? Hf' Hl| | | | | | | | | | | |]; subst; [congruence|..];
        (destruct (ht_insert keq hash k v h) as [o h1|]; [|done]; injection Hcl as Ho <-; exists o, h1; split; [done|]);
        match goal with Hq : _ = E'.*2 |- _ => rename Hq into HE end.
      + rewrite decide_True by lia. split; [by destruct o|]. split.
        * pose proof (om_spec_asc (MInsert k v) l Ha (Hcap _ _ Hr)) as Hx. cbn in Hx. rewrite <- (find_same k l E.*2), Hf' in Hx by done.
          rewrite decide_True in Hx by lia. exact Hx.
        * exists E'. split; [done|]. rewrite <- HE. by apply insert_same.
      + rewrite decide_False by lia. split; [by destruct o|]. split; [done|]. exists E'. split; [done|]. by rewrite <- HE.
    - intros h l k v x Hr _ Hf Hlt. destruct (Hstep (HInsert k v) h l Hr) as (E & r & h' & E' & Hcl & Hi & Hi' & Hs & Hd & Hp). pose proof Hr as [Ha _].
      unfold call, ht_step, mbind, M_bind in Hcl. pose proof Hf as Hf0. rewrite <- (find_same k l E.*2) in Hf by done.
      inversion Hs as [? ? ? y Hf'| ? ? ? Hf' Hl|? ? ? Hf' Hl| | | | | | | | | | | |]; subst; [|congruence..].
      match goal with Hq : _ = E'.*2 |- _ => rename Hq into HE end.
      destruct (ht_insert keq hash k v h) as [[i|] h1|]; [|done|done]. injection Hcl as <-. exists i, h1. split; [done|]. split.
      + pose proof (om_spec_asc (MInsert k v) l Ha (Hcap _ _ Hr)) as Hx. cbn in Hx. by rewrite Hf0 in Hx.
      + exists E'. split; [done|]. rewrite <- HE. by apply insert_same.
    - intros h l k v Hr _ Hg. destruct (Hstep (HRemove k) h l Hr) as (E & r & h' & E' & Hcl & Hi & Hi' & Hs & Hd & Hp). pose proof Hr as [Ha _].
      unfold call, ht_step, mbind, M_bind in Hcl. inversion Hs as [| | |? ? | | | | | | | | | | |]; subst.
      destruct (ht_remove keq hash k h) as [o h1|]; [|done]. injection Hcl as Ho <-. exists h1.
      assert (hm_get keq k E.*2 = Some v) as Hg' by (unfold hm_get; rewrite (find_same k l) by done; exact Hg).
      rewrite Ho, Hg'. split; [done|]. split; [exact (om_spec_asc (MRemove k) l Ha (Hcap _ _ Hr))|]. exists E'. split; [done|].
      match goal with Hq : _ = E'.*2 |- _ => rewrite <- Hq end. by apply remove_same.
    - intros h l k v f Hr _ Hg. destruct (Hstep (HGetMut k f) h l Hr) as (E & r & h' & E' & Hcl & Hi & Hi' & Hs & Hd & Hp). pose proof Hr as [Ha _].
      unfold call, ht_step, mbind, M_bind in Hcl. inversion Hs as [| | | | |? ? ? | | | | | | | | |]; subst.
      destruct (ht_get_mut keq hash k f h) as [o h1|]; [|done]. injection Hcl as Ho <-. exists h1.
      assert (hm_get keq k E.*2 = Some v) as Hg' by (unfold hm_get; rewrite (find_same k l) by done; exact Hg).
      rewrite Ho, Hg'. split; [done|]. split; [exact (om_spec_asc (MGetMut k f) l Ha (Hcap _ _ Hr))|]. exists E'. split; [done|].
      match goal with Hq : _ = E'.*2 |- _ => rewrite <- Hq end. by apply alter_same.
    - done.
    - done.
    - intros _ h l n Hr. destruct Hr as (Ha & E & (bs & Hok & HpE) & Hp). exists (concat bs).*2. split; [by rewrite <- HpE|].
      rewrite (ht_iterate_ok _ _ _ _ _ _ Hok). by rewrite fw_spec_fwd.
    - intros _ h l fs Hr. destruct Hr as (Ha & E & (bs & Hok & HpE) & Hp).
      set (sc := map (λ f, (Fwd, f)) fs).
      assert (wp (ht_iterate_mut sc) h (λ out h', out = (fw_mut_spec hupd sc (concat bs)).1 ∧ ∃ bs', HOK keq hash cap h' bs' ∧ concat bs' = (fw_mut_spec hupd sc (concat bs)).2)) as Hwp.
      { eapply ht_iterate_mut_ok; [done|exact _|exact Hok|]. intros h' bs' Hok' Hbs'. split; [done|]. by exists bs'. }
      destruct (wp_elim _ _ _ Hwp) as (out & h' & He & Ho & bs' & Hok' & Hc').
      assert (HI keq hash cap h' (concat bs')) as Hi' by by exists bs'.
      destruct (asc_exists (concat bs').*2 (HI_keys _ _ HL _ _ _ Hi')) as (l'' & Hp'' & Ha'').
      pose proof (fw_mut_spec_map snd hupd (λ f (x : K * V), (x.1, f x.2)) sc (concat bs) (λ _ _, eq_refl)) as Hm.
      unfold sc in Hm at 1. rewrite fw_mut_spec_fwd in Hm. fold sc in Hm.
      exists (concat bs).*2, out, h', l''. change ((concat bs).*2) with (map snd (concat bs)). rewrite Hm. cbn [fst snd]. split_and!.
      + change (map snd (concat bs)) with ((concat bs).*2). by rewrite <- HpE.
      + exact He.
      + by rewrite Ho.
      + split; [done|]. exists (concat bs'). split; [done|]. by rewrite Hp''.
      + by rewrite Hp'', Hc'.
    - intros _ h l fs Hr. destruct Hr as (Ha & E & (bs & Hok & HpE) & Hp).
      set (sc := map (λ f, (Bwd, f)) fs).
      assert (wp (ht_iterate_mut sc) h (λ out h', out = (fw_mut_spec hupd sc (concat bs)).1 ∧ ∃ bs', HOK keq hash cap h' bs' ∧ concat bs' = (fw_mut_spec hupd sc (concat bs)).2)) as Hwp.
      { eapply ht_iterate_mut_ok; [done|exact _|exact Hok|]. intros h' bs' Hok' Hbs'. split; [done|]. by exists bs'. }
      destruct (wp_elim _ _ _ Hwp) as (out & h' & He & Ho & bs' & Hok' & Hc').
      assert (∀ m : list (N * (K * V)), fw_mut_spec hupd sc m = (replicate (length fs) None, m)) as Hb.
      { unfold sc. clear. intros m. induction fs as [|f fs IH]; [done|]. cbn [map fw_mut_spec]. rewrite IH. done. }
      rewrite Hb in Ho, Hc'. cbn in Ho, Hc'. exists h'. rewrite He, Ho. split; [done|]. split; [done|].
      exists E. split; [|done]. exists bs'. split; [done|]. by rewrite Hc'.
  Qed.
End hash.

Section main.
  Context `{Profile} {K V : Type} `{EqDecision V} (keq : K → K → bool) (hash : K → N) (HL : HashLaws keq hash)
    (cmp : K → K → comparison) (HO : OrdLaws cmp) (Hc : ∀ a b, keq a b = true ↔ cmp a b = Eq) (nb ms : nat) (d : K * V).
  Context (h0 : htable K V) (Hnew : ht_new nb ms d = Some h0) (Hnb : (0 < nb)%nat) (Hw : N.of_nat ms + 1 < W32) (R : rng K V).
  Lemma hs_start : hs_at keq hash cmp (N.of_nat ms) h0 [].
  Proof using HL Hnew Hnb Hw. split; [constructor|]. exists []. split; [by eapply ht_new_ok|done]. Qed.
  Lemma ht_simulate :
    (∀ i j, i < 202 * N.of_nat ms + 203 → j < 202 * N.of_nat ms + 203 → cmp (r_key R i) (r_key R j) = Eq → i = j) → (∀ n l, r_shuffle R n l ≡ₚ l) →
    ∃ st, test_simulate_ht keq hash cmp R ms h0 = Ret () st.
  Proof using HL HO Hc Hnew Hnb Hw.
    intros HF Hs. pose proof (simulate_ok _ cmp HO (λ _, True) (N.of_nat ms) R false _ (hs_sim keq hash HL cmp HO Hc (N.of_nat ms)) (λ _, I) Hs h0 ms HF hs_start eq_refl) as Hv.
    unfold wpf in Hv. unfold test_simulate_ht. destruct (simulate _ _ _ _ _ _) as [[] st|e st]; [by exists st|]. by destruct Hv as (_ & ? & _).
  Qed.
  Lemma ht_same_key i j : (i < j < ms)%nat → cmp (r_key R (2 * N.of_nat i)) (r_key R (2 * N.of_nat j)) = Eq →
    ∃ st, test_simulate_ht keq hash cmp R ms h0 = Fail Panic st.
  Proof using HL HO Hc Hnew Hnb Hw.
    intros Hij He. exact (simulate_dup _ cmp HO (λ _, True) (N.of_nat ms) R false _ (hs_sim keq hash HL cmp HO Hc (N.of_nat ms)) (λ _, I) h0 ms i j hs_start eq_refl Hij He).
  Qed.
End main.
