(** * [simulate] for the trees (for C63) *)
From Verif Require Import RBProps AVLProps CritProps.
From Verif Require Import FuzzModel FuzzProof FuzzTrees MapProof TestModel TestProof.

Section trees.
  Context `{Profile} {S K V : Type} `{EqDecision V} (api : oapi S K V) (cmp : K → K → comparison) (HO : OrdLaws cmp) (dom : K → Prop) (cap : N) (up : bool)
    (sp : om_op K V → list (K * V) → res (om_out K V) * list (K * V)) (s0 : S).
  Hypothesis Hsp : ∀ o l, sp o l =
    match o with
    | MInsert k v => if up || bool_decide (lengthN l < cap) then om_spec cmp cap o l else (Val (MBool false), l)
    | _ => om_spec cmp cap o l
    end.
  Hypothesis Hist : ∀ ops, Forall (dom_op dom) ops → (history (om_step api) ops s0).1 = (spec_history sp ops []).1.
  Notation At := (tr_at api dom sp s0).
  Lemma tr_sim : sim_ok (nam_of_oapi api) cmp dom cap true At.
  Proof using HO Hsp Hist.
    split.
    - intros s l. by apply (tr_inv api cmp HO dom cap up sp s0 Hsp).
    - intros s l Ha. pose proof (tr_ask api dom sp s0 Hist s l MLen Ha I) as Hc. rewrite Hsp in Hc. by injection Hc.
    - intros s l. by apply (tr_capacity api cmp dom cap up sp s0 Hsp Hist).
    - intros s l k v Ha Hk Hf. destruct (tr_insert api cmp dom cap up sp s0 Hsp Hist s l k v Ha Hk) as (o & s' & He & Ha' & Ho). exists o, s'. split; [exact He|].
      rewrite Hsp in Ha', Ho. cbn [om_spec] in Ha', Ho. rewrite Hf in Ha', Ho. destruct (decide (lengthN l < cap)) as [E|E].
      + rewrite (bool_decide_eq_true_2 _ E), orb_true_r in Ha', Ho. injection Ho as Ho. split; [by destruct o|done].
      + destruct (up || _); injection Ho as Ho; (split; [by destruct o|done]).
    - intros s l k v x Ha Hk Hf Hl. destruct (tr_insert api cmp dom cap up sp s0 Hsp Hist s l k v Ha Hk) as (o & s' & He & Ha' & Ho).
      rewrite Hsp in Ha', Ho. cbn [om_spec] in Ha', Ho. rewrite Hf, (bool_decide_eq_true_2 _ Hl), orb_true_r in Ha', Ho. injection Ho as Ho.
      destruct o as [i|]; [|done]. by exists i, s'.
    - intros s l k v Ha Hk Hg. destruct (tr_call api dom sp s0 Hist s l (MRemove k) Ha Hk) as [H1 H2]. rewrite Hsp in H1, H2.
      unfold call, om_step, mbind, M_bind in H1, H2. cbn [om_spec fst snd] in H1, H2. cbn [n_remove nam_of_oapi].
      destruct (a_remove api k s) as [o s'|]; [|done]. injection H1 as ->. exists s'. by rewrite Hg.
    - intros s l k v f Ha Hk Hg. destruct (tr_call api dom sp s0 Hist s l (MGetMut k f) Ha Hk) as [H1 H2]. rewrite Hsp in H1, H2.
      unfold call, om_step, mbind, M_bind in H1, H2. cbn [om_spec fst snd] in H1, H2. cbn [n_get_mut nam_of_oapi].
      destruct (a_get_mut api k f s) as [o s'|]; [|done]. injection H1 as ->. exists s'. by rewrite Hg.
    - intros _ s l sc Ha. pose proof (tr_ask api dom sp s0 Hist s l (MIter sc) Ha I) as Hc. rewrite Hsp in Hc.
      unfold call, om_step, mbind, M_bind, gets in Hc. cbn [om_spec fst] in Hc. cbn [n_iter nam_of_oapi].
      destruct (a_iter api s sc) as [r|]; [|done]. by injection Hc as ->.
    - intros _ s l sc Ha. destruct (tr_call api dom sp s0 Hist s l (MIterMut sc) Ha I) as [H1 H2]. rewrite Hsp in H1, H2.
      unfold call, om_step, mbind, M_bind in H1, H2. cbn [om_spec fst snd] in H1, H2. cbn [n_iter_mut nam_of_oapi].
      destruct (de_mut_spec _ _ l) as [o' l']. destruct (a_iter_mut api sc s) as [o s'|]; [|done]. injection H1 as Ho. by exists o, s'.
    - done.
    - done.
    - done.
  Qed.
  Lemma tr_at_start : At s0 [].
  Proof using Type. exists []. done. Qed.
End trees.

Section verdicts.
  Context `{Profile} {S K V : Type} `{EqDecision V} (api : oapi S K V) (cmp : K → K → comparison) (HO : OrdLaws cmp) (dom : K → Prop) (ms : nat) (up : bool)
    (sp : om_op K V → list (K * V) → res (om_out K V) * list (K * V)) (s0 : S).
  Hypothesis Hsp : ∀ o l, sp o l =
    match o with
    | MInsert k v => if up || bool_decide (lengthN l < N.of_nat ms) then om_spec cmp (N.of_nat ms) o l else (Val (MBool false), l)
    | _ => om_spec cmp (N.of_nat ms) o l
    end.
  Hypothesis Hist : ∀ ops, Forall (dom_op dom) ops → (history (om_step api) ops s0).1 = (spec_history sp ops []).1.
  Context (R : rng K V) (Hdom : ∀ n, dom (r_key R n)) (Hs : ∀ n l, r_shuffle R n l ≡ₚ l).
  Notation sim_run := (simulate (nam_of_oapi api) cmp R ms true (sim_start s0)).
  Lemma tr_simulate :
    (∀ i j, i < 202 * N.of_nat ms + 203 → j < 202 * N.of_nat ms + 203 → cmp (r_key R i) (r_key R j) = Eq → i = j) →
    match sim_run with Ret _ st => 3 ≤ a_len api (m_tree st) | Fail e st => e = Panic ∧ a_len api (m_tree st) < 3 end.
  Proof using HO Hsp Hist Hdom Hs.
    intros HF. pose proof (simulate_ok _ cmp HO dom (N.of_nat ms) R true _ (tr_sim api cmp HO dom (N.of_nat ms) up sp s0 Hsp Hist) Hdom Hs s0 ms HF (tr_at_start api dom sp s0) eq_refl) as Hv.
    unfold wpf in Hv. destruct sim_run as [[] st|e st]; [by apply Hv|]. by destruct Hv as (? & _ & ?).
  Qed.
  Lemma tr_unlucky :
    (∀ i j, i < 2 * N.of_nat ms + 3 → j < 2 * N.of_nat ms + 3 → cmp (r_key R i) (r_key R j) = Eq → i = j) → (∀ n, r_third R n = High) →
    ∃ st, sim_run = Fail Panic st.
  Proof using HO Hsp Hist Hdom Hs.
    intros HF Hh. pose proof (simulate_high _ cmp HO dom (N.of_nat ms) R true _ (tr_sim api cmp HO dom (N.of_nat ms) up sp s0 Hsp Hist) Hdom Hs s0 ms HF (tr_at_start api dom sp s0) eq_refl eq_refl Hh) as Hv.
    unfold wpf in Hv. destruct sim_run as [[] st|e st]; [done|]. exists st. by destruct Hv as (-> & _).
  Qed.
  Lemma tr_same_key i j : (i < j < ms)%nat → cmp (r_key R (2 * N.of_nat i)) (r_key R (2 * N.of_nat j)) = Eq → ∃ st, sim_run = Fail Panic st.
  Proof using HO Hsp Hist Hdom.
    intros Hij He. exact (simulate_dup _ cmp HO dom (N.of_nat ms) R true _ (tr_sim api cmp HO dom (N.of_nat ms) up sp s0 Hsp Hist) Hdom s0 ms i j (tr_at_start api dom sp s0) eq_refl Hij He).
  Qed.
End verdicts.

Lemma rb_sp {K V} (cmp : K → K → comparison) cap (o : om_op K V) l : om_spec cmp cap o l =
  match o with
  | MInsert k v => if true || bool_decide (lengthN l < cap) then om_spec cmp cap o l else (Val (MBool false), l)
  | _ => om_spec cmp cap o l
  end.
Proof. by destruct o. Qed.

Section main.
  Context `{Profile} {K V : Type} `{EqDecision V} (ms : nat) (d : K * V) (H0 : (0 < ms)%nat) (Hw : N.of_nat ms + 1 < W32) (R : rng K V).
  Notation B := (202 * N.of_nat ms + 203).
  Section rb.
    Context (cmp : K → K → comparison) (HO : OrdLaws cmp).
    Let Hist (ops : list (om_op K V)) (_ : Forall (dom_op (λ _, True)) ops) := C19_rb_is_map cmp HO ms d H0 Hw ops.
    Lemma rb_simulate : (∀ i j, i < B → j < B → cmp (r_key R i) (r_key R j) = Eq → i = j) → (∀ n l, r_shuffle R n l ≡ₚ l) →
      match test_simulate_rb cmp R ms d with Ret _ st => 3 ≤ rb_len (m_tree st) | Fail e st => e = Panic ∧ rb_len (m_tree st) < 3 end.
    Proof using HO H0 Hw. intros HF Hs. exact (tr_simulate (rb_api cmp) cmp HO (λ _, True) ms true _ _ (rb_sp cmp (N.of_nat ms)) Hist R (λ _, I) Hs HF). Qed.
    Lemma rb_unlucky : (∀ i j, i < 2 * N.of_nat ms + 3 → j < 2 * N.of_nat ms + 3 → cmp (r_key R i) (r_key R j) = Eq → i = j) → (∀ n l, r_shuffle R n l ≡ₚ l) →
      (∀ n, r_third R n = High) → ∃ st, test_simulate_rb cmp R ms d = Fail Panic st.
    Proof using HO H0 Hw. intros HF Hs. exact (tr_unlucky (rb_api cmp) cmp HO (λ _, True) ms true _ _ (rb_sp cmp (N.of_nat ms)) Hist R (λ _, I) Hs HF). Qed.
    Lemma rb_same_key i j : (i < j < ms)%nat → cmp (r_key R (2 * N.of_nat i)) (r_key R (2 * N.of_nat j)) = Eq → ∃ st, test_simulate_rb cmp R ms d = Fail Panic st.
    Proof using HO H0 Hw. exact (tr_same_key (rb_api cmp) cmp HO (λ _, True) ms true _ _ (rb_sp cmp (N.of_nat ms)) Hist R (λ _, I) i j). Qed.
  End rb.
  Section av.
    Context (pcmp : K → K → option comparison) (HO : OrdLaws (po_cmp pcmp)).
    Notation cmp := (po_cmp pcmp).
    Let Hist (ops : list (om_op K V)) (_ : Forall (dom_op (λ _, True)) ops) := C27_av_is_map pcmp HO ms d H0 Hw ops.
    Lemma av_simulate : (∀ i j, i < B → j < B → cmp (r_key R i) (r_key R j) = Eq → i = j) → (∀ n l, r_shuffle R n l ≡ₚ l) →
      match test_simulate_av pcmp R ms d with Ret _ st => 3 ≤ av_len (m_tree st) | Fail e st => e = Panic ∧ av_len (m_tree st) < 3 end.
    Proof using HO H0 Hw. intros HF Hs. exact (tr_simulate (av_api pcmp) cmp HO (λ _, True) ms true _ _ (rb_sp cmp (N.of_nat ms)) Hist R (λ _, I) Hs HF). Qed.
    Lemma av_unlucky : (∀ i j, i < 2 * N.of_nat ms + 3 → j < 2 * N.of_nat ms + 3 → cmp (r_key R i) (r_key R j) = Eq → i = j) → (∀ n l, r_shuffle R n l ≡ₚ l) →
      (∀ n, r_third R n = High) → ∃ st, test_simulate_av pcmp R ms d = Fail Panic st.
    Proof using HO H0 Hw. intros HF Hs. exact (tr_unlucky (av_api pcmp) cmp HO (λ _, True) ms true _ _ (rb_sp cmp (N.of_nat ms)) Hist R (λ _, I) Hs HF). Qed.
    Lemma av_same_key i j : (i < j < ms)%nat → cmp (r_key R (2 * N.of_nat i)) (r_key R (2 * N.of_nat j)) = Eq → ∃ st, test_simulate_av pcmp R ms d = Fail Panic st.
    Proof using HO H0 Hw. exact (tr_same_key (av_api pcmp) cmp HO (λ _, True) ms true _ _ (rb_sp cmp (N.of_nat ms)) Hist R (λ _, I) i j). Qed.
  End av.
End main.

Section crit.
  Context `{Profile} {V : Type} `{EqDecision V} (nn ms : nat) (d : V) (t0 : critbit V) (H0 : (0 < ms)%nat) (Hw : N.of_nat nn + 1 < W32)
    (Hnew : cb_new nn ms d = Some t0) (R : rng N V) (Hdom : ∀ n, r_key R n < W128).
  Notation B := (202 * N.of_nat ms + 203).
  Lemma cb_simulate : (∀ i j, i < B → j < B → r_key R i = r_key R j → i = j) → (∀ n l, r_shuffle R n l ≡ₚ l) →
    match test_simulate_cb R ms t0 with Ret _ st => 3 ≤ cb_len (m_tree st) | Fail e st => e = Panic ∧ cb_len (m_tree st) < 3 end.
  Proof using H0 Hw Hnew Hdom.
    intros HF Hs.
    exact (tr_simulate cb_api N.compare N_laws (λ k, k < W128) ms false _ t0 (cb_sp ms) (cb_hist nn ms d t0 H0 Hw Hnew) R Hdom Hs
      (λ i j Hi Hj He, HF i j Hi Hj (proj1 (N.compare_eq_iff _ _) He))).
  Qed.
  Lemma cb_unlucky : (∀ i j, i < 2 * N.of_nat ms + 3 → j < 2 * N.of_nat ms + 3 → r_key R i = r_key R j → i = j) → (∀ n l, r_shuffle R n l ≡ₚ l) →
    (∀ n, r_third R n = High) → ∃ st, test_simulate_cb R ms t0 = Fail Panic st.
  Proof using H0 Hw Hnew Hdom.
    intros HF Hs.
    exact (tr_unlucky cb_api N.compare N_laws (λ k, k < W128) ms false _ t0 (cb_sp ms) (cb_hist nn ms d t0 H0 Hw Hnew) R Hdom Hs
      (λ i j Hi Hj He, HF i j Hi Hj (proj1 (N.compare_eq_iff _ _) He))).
  Qed.
  Lemma cb_same_key i j : (i < j < ms)%nat → r_key R (2 * N.of_nat i) = r_key R (2 * N.of_nat j) → ∃ st, test_simulate_cb R ms t0 = Fail Panic st.
  Proof using H0 Hw Hnew Hdom.
    intros Hij He.
    exact (tr_same_key cb_api N.compare N_laws (λ k, k < W128) ms false _ t0 (cb_sp ms) (cb_hist nn ms d t0 H0 Hw Hnew) R Hdom i j Hij
      (proj2 (N.compare_eq_iff _ _) He)).
  Qed.
End crit.
