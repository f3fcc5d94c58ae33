(** * The AVL tree used by programs with different comparisons *)
From Verif Require Export ChangeTree LooseAVL.

Definition acall_step `{Profile} {K V} (c : (K → K → option comparison) * om_op K V) : M (avlt K V) (om_out K V) := av_step c.1 c.2.
Definition acall_of {K V} (c : (K → K → option comparison) * om_op K V) : (K → K → comparison) * option (om_op K V) := (po_cmp c.1, Some c.2).

Section main.
  Context `{Profile} {K V : Type} (ms : nat) (d : K * V) (H0 : (0 < ms)%nat) (Hw : N.of_nat ms + 1 < W32).
  Notation cap := (N.of_nat ms).
  Lemma acalls_run cs (t : avlt K V) U :
    avll cap t U →
    ∃ U', avll cap (history acall_step cs t).2 U' ∧ bt_runs cap (acall_of <$> cs) (bt_of U) (history acall_step cs t).1 (bt_of U').
  Proof using H0.
    revert t U. induction cs as [|[pcmp o] cs IH]; intros t U Hok; cbn [history fmap list_fmap].
    { exists U. split; [done|constructor]. }
    destruct (lm_step_ok _ (av_cmp pcmp) cap _ o t (bt_of U) (av_lm_ok pcmp cap ltac:(clear -H0; lia))) as (r & t1 & T1 & Hc & (U1 & Hok1 & <-) & Hs);
      [by exists U|].
    unfold acall_step at 1 3. cbn [fst snd]. unfold av_step. rewrite Hc.
    destruct (IH t1 U1 Hok1) as (U2 & Hok2 & Hr). destruct (history acall_step cs t1) as [rs t2]. cbn [fst snd] in *.
    exists U2. split; [done|]. by econstructor.
  Qed.
  Lemma acalls_ops cs :
    ∃ U, avll cap (history acall_step cs (av_new ms d)).2 U ∧ bt_runs cap (acall_of <$> cs) BL (history acall_step cs (av_new ms d)).1 (bt_of U).
  Proof using H0 Hw. apply (acalls_run cs (av_new ms d) Lf). by destruct (avok_new (λ _ _, Some Lt) ms d Hw). Qed.
  Lemma acalls_fact cs :
    let '(rs, t) := history acall_step cs (av_new ms d) in
    ∃ T, bt_at (av_get_node t) (λ i, av_get_field t i Left) (λ i, av_get_field t i Right) (as_u32 (av_root t)) T ∧
      bt_runs cap (acall_of <$> cs) BL rs T.
  Proof using H0 Hw.
    destruct (acalls_ops cs) as (U & [HR _] & Hr). destruct (history acall_step cs (av_new ms d)) as [rs t]. cbn [fst snd] in *.
    exists (bt_of U). split; [|done]. rewrite (rep_root _ _ _ HR). by apply (rep_bt_at cap t [] U).
  Qed.
  Lemma acalls_shape cs :
    let t := (history acall_step cs (av_new ms d)).2 in
    (∃ h, av_sub t (as_u32 (av_root t)) h) ∧
    ∀ p, av_path t (as_u32 (av_root t)) p → fib (length p + 2) ≤ av_len t + 1.
  Proof using H0 Hw.
    intros t. destruct (acalls_ops cs) as (U & [HR Ha] & _). fold t in HR.
    assert (avok (λ _ _, Some Lt) cap t U) as Hok.
    { split; [done|done|]. generalize ((entries U).*2). intros es. induction es; constructor; [done|]. by apply Forall_true. }
    split.
    - exists (height U). rewrite (rep_root _ _ _ HR). by eapply (rep_sub cap _ []).
    - intros p Hp. pose proof (av_height _ _ _ _ Hok) as [_ Hf]. rewrite (rep_root _ _ _ HR) in Hp.
      apply (rep_path cap _ []) in Hp; [|done]. etrans; [|exact Hf]. apply fib_mono. lia.
  Qed.
End main.

Section reversed.
  Context `{Profile} {K V : Type} (pcmp : K → K → option comparison) (HO : OrdLaws (po_cmp pcmp)) (ms : nat) (d : K * V)
    (H0 : (0 < ms)%nat) (Hw : N.of_nat ms + 1 < W32).
  Lemma av_reversed_fact ops k v :
    let t := (history (av_step pcmp) ops (av_new ms d)).2 in
    av_get (λ a b, pcmp b a) t k = Val (Some v) ↔
    as_u32 (av_root t) ≠ 0 ∧ ∃ k0, av_get_node t (as_u32 (av_root t)) = Val (k0, v) ∧ po_cmp pcmp k k0 = Eq.
  Proof using HO H0 Hw.
    intros t. destruct (av_reach pcmp HO ms d H0 Hw ops) as (U & [HR Hb Hs] & _). unfold av_after in *. fold t in HR.
    rewrite (avll_get (λ a b, pcmp b a) (N.of_nat ms) t U k) by by split. unfold bt_get.
    change (av_cmp (λ a b, pcmp b a)) with (λ a b, po_cmp pcmp b a).
    rewrite bt_reversed by (rewrite ?bt_seq_of; done). rewrite (rep_root _ _ _ HR).
    destruct U as [|m a i kv b]; cbn [bt_of root].
    - split; [done|]. by intros [? _].
    - assert (i ≠ 0) as Hi by (apply (rep_nz _ t [] (Nd m a i kv b) HR); done).
      rewrite (rep_node _ t [] _ _ _ _ _ HR). destruct (po_cmp pcmp k kv.1) eqn:He; split.
      + intros [= <-]. split; [done|]. exists kv.1. by destruct kv.
      + intros (_ & k0 & [= ->] & _). done.
      + done.
      + intros (_ & k0 & [= ->] & ?). cbn in *. congruence.
      + done.
      + intros (_ & k0 & [= ->] & ?). cbn in *. congruence.
  Qed.
End reversed.
