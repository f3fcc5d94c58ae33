(** * The fuzz targets of the trees (for C55) *)
From Verif Require Import RBProps AVLProps CritProps.
From Verif Require Import FuzzModel FuzzProof MapProof.

Lemma dom_op_all {K V} (o : om_op K V) : dom_op (λ _, True) o.
Proof. by destruct o. Qed.
Lemma tr_keq_true {K} (cmp : K → K → comparison) a b : tr_keq cmp a b = true ↔ cmp a b = Eq.
Proof. apply bool_decide_eq_true. Qed.

(** What a run of a target leaves, read through the calls *)
Lemma tr_run {S K V} `{EqDecision V} (api : oapi S K V) cmp (HO : OrdLaws cmp) dom cap up sp s0 check acts :
  (∀ o l, sp o l =
    match o with
    | MInsert k v => if up || bool_decide (lengthN l < cap) then om_spec cmp cap o l else (Val (MBool false), l)
    | _ => om_spec cmp cap o l
    end) →
  (∀ ops, Forall (dom_op dom) ops → (history (om_step api) ops s0).1 = (spec_history sp ops []).1) →
  (∀ ops, Forall (dom_op dom) ops → check (history (om_step api) ops s0).2 = Val true) →
  (∀ k v rnd, (FInsert k v, rnd) ∈ acts → dom k) →
  up = true ∨ (∀ pre v rnd post s' ks', acts = pre ++ (FUpsert v, rnd) :: post →
    fz_target (nam_of_oapi api) check pre (s0, []) = Ret () (s', ks') → a_len api s' < cap) →
  ∃ t ks, fz_target (nam_of_oapi api) check acts (s0, []) = Ret () (t, ks) ∧ a_len api t = lengthN ks ∧
    ForallOrdPairs (λ a b, cmp a b ≠ Eq) ks ∧
    ∀ k, dom k → ((∃ v, a_get api t k = Val (Some v)) ↔ ∃ k', k' ∈ ks ∧ cmp k' k = Eq).
Proof.
  intros Hsp Hist Hch Hdom Hup. pose proof (tr_ok api cmp HO dom cap up sp s0 Hsp Hist) as OK.
  pose proof (fz_target_ok _ _ _ _ _ _ OK check acts s0 []) as Hw.
  assert (wp (fz_target (nam_of_oapi api) check acts) (s0, []) (λ _ st, fz_inv (tr_keq cmp) dom (tr_rep api cmp dom sp s0) st.1 st.2)) as Hwp.
  { apply Hw.
    - intros s g n (l & (ops & Hops & -> & _) & _). by apply Hch.
    - eapply fz_inv_nil; [apply tr_start|done].
    - apply Forall_fmap, Forall_forall. intros [a rnd] Ha. destruct a as [k v| | | | | | |]; try done. by eapply Hdom.
    - exact Hup. }
  destruct (wp_elim _ _ _ Hwp) as ([] & [t ks] & He & Hinv). cbn [fst snd] in Hinv. exists t, ks. split; [exact He|].
  destruct (fz_inv_facts _ _ _ _ _ _ OK t ks Hinv) as (Hl & Hp & Hg). split; [exact Hl|]. split.
  { clear -Hp. induction Hp as [|a l Ha _ IH]; constructor; [|done]. eapply Forall_impl; [exact Ha|]. simpl. intros b Hb Hc.
    apply tr_keq_true in Hc. congruence. }
  intros k Hk. destruct (Hg k Hk) as (o & Ho & Hks). cbn in Ho. rewrite Ho. setoid_rewrite <- tr_keq_true. rewrite <- Hks.
  split; [intros [v Hv]; injection Hv as ->; by eauto|]. intros [v ->]. by exists v.
Qed.

Section main.
  Context `{Profile} {K V : Type} `{EqDecision V} (ms : nat) (d : K * V) (H0 : (0 < ms)%nat) (Hw : N.of_nat ms + 1 < W32).
  Lemma rb_hist_some (cmp : K → K → comparison) ops :
    history (rb_step cmp) (map Some ops) (rb_new ms d) = history (om_step (rb_api cmp)) ops (rb_new ms d).
  Proof using Type. clear. generalize (rb_new ms d). induction ops as [|o ops IH]; intros t; [done|]. cbn [map history rb_step]. by destruct (call _ t); rewrite IH. Qed.
  Lemma rb_fuzz_fact cmp (HO : OrdLaws cmp) (acts : list (fz_action K V * N)) :
    ∃ t ks, fuzz_rb cmp acts (rb_new ms d, []) = Ret () (t, ks) ∧ rb_len t = lengthN ks ∧ ForallOrdPairs (λ a b, cmp a b ≠ Eq) ks ∧
      ∀ k, (∃ v, rb_get cmp t k = Val (Some v)) ↔ ∃ k', k' ∈ ks ∧ cmp k' k = Eq.
  Proof using H0 Hw.
    destruct (tr_run (rb_api cmp) cmp HO (λ _, True) (N.of_nat ms) true (om_spec cmp (N.of_nat ms)) (rb_new ms d) rb_is_valid acts)
      as (t & ks & He & Hl & Hp & Hg); [by intros []|..].
    - intros ops _. by apply (C19_rb_is_map cmp HO ms d H0 Hw).
    - intros ops _. rewrite <- rb_hist_some. by apply (C21_rb_valid cmp HO ms d H0 Hw).
    - done.
    - by left.
    - exists t, ks. split_and!; [exact He|exact Hl|exact Hp|]. intros k. by apply Hg.
  Qed.
  Lemma av_fuzz_fact pcmp (HO : OrdLaws (po_cmp pcmp)) (acts : list (fz_action K V * N)) :
    ∃ t ks, fuzz_avl pcmp acts (av_new ms d, []) = Ret () (t, ks) ∧ av_len t = lengthN ks ∧ ForallOrdPairs (λ a b, po_cmp pcmp a b ≠ Eq) ks ∧
      ∀ k, (∃ v, av_get pcmp t k = Val (Some v)) ↔ ∃ k', k' ∈ ks ∧ po_cmp pcmp k' k = Eq.
  Proof using H0 Hw.
    destruct (tr_run (av_api pcmp) (po_cmp pcmp) HO (λ _, True) (N.of_nat ms) true (om_spec (po_cmp pcmp) (N.of_nat ms)) (av_new ms d) (λ _, Val true) acts)
      as (t & ks & He & Hl & Hp & Hg); [by intros []|..].
    - intros ops _. by apply (C27_av_is_map pcmp HO ms d H0 Hw).
    - done.
    - done.
    - by left.
    - exists t, ks. split_and!; [exact He|exact Hl|exact Hp|]. intros k. by apply Hg.
  Qed.
End main.

Section crit.
  Context `{Profile} {V : Type} `{EqDecision V} (nn ms : nat) (d : V) (t0 : critbit V) (H0 : (0 < ms)%nat) (Hw : N.of_nat nn + 1 < W32)
    (Hnew : cb_new nn ms d = Some t0).
  Notation cap := (N.of_nat ms).
  Lemma cb_sp (o : om_op N V) l : cb_spec cap o l =
    match o with
    | MInsert k v => if false || bool_decide (lengthN l < cap) then om_spec N.compare cap o l else (Val (MBool false), l)
    | _ => om_spec N.compare cap o l
    end.
  Proof using Type. destruct o as [k v| | | | | | | | | | | | |]; try done. unfold cb_spec. cbn [orb]. by destruct (decide _) as [E|E];
    [rewrite bool_decide_eq_true_2|rewrite bool_decide_eq_false_2]. Qed.
  Lemma cb_hist (ops : list (om_op N V)) :
    Forall (dom_op (λ k, k < W128)) ops → (history (om_step cb_api) ops t0).1 = (spec_history (cb_spec cap) ops []).1.
  Proof using H0 Hw Hnew. intros Ho. by apply (C33_cb_is_map nn ms d t0 H0 Hw Hnew). Qed.
  Lemma cb_fuzz_fact (acts : list (fz_action N V * N)) :
    (∀ k v rnd, (FInsert k v, rnd) ∈ acts → k < W128) →
    (∀ pre v rnd post t ks, acts = pre ++ (FUpsert v, rnd) :: post → fuzz_critbit pre (t0, []) = Ret () (t, ks) → cb_len t < cap) →
    ∃ t ks, fuzz_critbit acts (t0, []) = Ret () (t, ks) ∧ cb_len t = lengthN ks ∧ NoDup ks ∧
      ∀ k, k < W128 → ((∃ v, cb_get t k = Val (Some v)) ↔ k ∈ ks).
  Proof using H0 Hw Hnew.
    intros Hk Hu.
    destruct (tr_run cb_api N.compare N_laws (λ k, k < W128) cap false (cb_spec cap) t0 (λ _, Val true) acts)
      as (t & ks & He & Hl & Hp & Hg).
    - apply cb_sp.
    - apply cb_hist.
    - done.
    - exact Hk.
    - right. exact Hu.
    - exists t, ks. split_and!; [exact He|exact Hl| |].
      + clear -Hp. induction Hp as [|a l Ha _ IH]; constructor; [|done]. intros Hin. rewrite Forall_forall in Ha. apply (Ha a Hin). apply N.compare_refl.
      + intros k Hlt. etrans; [by apply Hg|]. split; [|intros; exists k; split; [done|apply N.compare_refl]].
        intros (k' & Hin & ->%N.compare_eq_iff). done.
  Qed.
  Lemma cb_fuzz_fails (news : list N) (v v' : V) rnd :
    Forall (λ k, k < W128) news → NoDup news → length news = ms → v ≠ v' →
    ∃ st, fuzz_critbit (map (λ k, (FInsert k v, 0)) news ++ [(FUpsert v', rnd)]) (t0, []) = Fail Panic st.
  Proof using H0 Hw Hnew.
    intros Hd Hnd Hl Hv. pose proof (tr_ok cb_api N.compare N_laws (λ k, k < W128) cap false (cb_spec cap) t0 cb_sp cb_hist) as OK.
    destruct (fz_fill _ _ _ _ _ _ OK (λ _, Val true) news t0 [] (λ _, None) v) as (s' & g' & He & HR & Hks).
    - done.
    - apply tr_start.
    - by left.
    - by intros k ?%elem_of_nil.
    - done.
    - clear -Hnd. induction Hnd as [|k l Hk _ IH]; constructor; [|done]. apply Forall_forall. intros k' Hk'. apply bool_decide_eq_false.
      intros ->%N.compare_eq_iff. done.
    - done.
    - unfold lengthN. simpl. lia.
    - cbn [app] in He, HR, Hks. assert (lengthN news = cap) as Hc by (unfold lengthN; by rewrite Hl). rewrite Hc in HR.
      destruct (fz_upsert_full _ _ _ _ _ _ OK s' news g' v v' rnd) as (st & Hst); [done|done|done|lia|done|done|].
      exists st. unfold fuzz_critbit. rewrite (fz_target_app _ _ _ _ _ _ He). cbn [fz_target]. unfold mbind, M_bind. by rewrite Hst.
  Qed.
End crit.
