(** * The red-black tree used by programs with different comparisons *)
From Verif Require Export ChangeTree LooseRB.

Definition rcall_step `{Profile} {K V} (c : (K → K → comparison) * option (om_op K V)) : M (rbt K V) (om_out K V) := rb_step c.1 c.2.

Section main.
  Context `{Profile} {K V : Type} (ms : nat) (d : K * V) (H0 : (0 < ms)%nat) (Hw : N.of_nat ms + 1 < W32).
  Notation cap := (N.of_nat ms).
  Lemma rcalls_run cs (t : rbt K V) U :
    rbl cap t U →
    ∃ U', rbl cap (history rcall_step cs t).2 U' ∧ bt_runs cap cs (bt_of U) (history rcall_step cs t).1 (bt_of U').
  Proof using H0.
    revert t U. induction cs as [|[cmp o] cs IH]; intros t U Hok; cbn [history].
    { exists U. split; [done|constructor]. }
    destruct (rb_loose_step cmp cap o t U ltac:(clear -H0; lia) Hok) as (r & t1 & U1 & He & Hok1 & Hs). unfold rcall_step at 1 3. cbn [fst snd]. rewrite He.
    destruct (IH t1 U1 Hok1) as (U2 & Hok2 & Hr). destruct (history rcall_step cs t1) as [rs t2]. cbn [fst snd] in *.
    exists U2. split; [done|]. by econstructor.
  Qed.
  Lemma rcalls_ops cs :
    ∃ U, rbl cap (history rcall_step cs (rb_new ms d)).2 U ∧ bt_runs cap cs BL (history rcall_step cs (rb_new ms d)).1 (bt_of U).
  Proof using H0 Hw. apply (rcalls_run cs (rb_new ms d) Lf). by destruct (rbok_new (λ _ _, Lt) ms d Hw). Qed.
  Lemma rcalls_fact cs :
    let '(rs, t) := history rcall_step cs (rb_new ms d) in
    ∃ T, bt_at (rb_get_node t) (rb_get_left t) (rb_get_right t) (rb_root t) T ∧ bt_runs cap cs BL rs T.
  Proof using H0 Hw.
    destruct (rcalls_ops cs) as (U & [HR _] & Hr). destruct (history rcall_step cs (rb_new ms d)) as [rs t]. cbn [fst snd] in *.
    exists (bt_of U). split; [|done]. rewrite (rep_root _ _ _ HR). by apply (rep_bt_at cap t [] U).
  Qed.
  Lemma rcalls_shape cs :
    let t := (history rcall_step cs (rb_new ms d)).2 in
    rb_get_color t (rb_root t) = Val Black ∧ (∃ n, rb_sub t (rb_root t) n) ∧ rb_is_valid t = Val true ∧
    ∀ p, rb_path t (rb_root t) p → 2 ^ lengthN p ≤ (rb_len t + 1) ^ 2.
  Proof using H0 Hw.
    intros t. destruct (rcalls_ops cs) as (U & [HR Hb] & _). fold t in HR.
    assert (rbok (λ _ _, Lt) cap t U) as Hok.
    { split; [done|done|]. generalize ((entries U).*2). intros es. induction es; constructor; [done|]. by apply Forall_true. }
    split_and!.
    - destruct Hb as [Hm _]. rewrite (rep_root _ _ _ HR), (rep_color cap _ _ [] U HR eq_refl). by rewrite Hm.
    - destruct Hb as [_ [n Hn]]. exists n. rewrite (rep_root _ _ _ HR). by eapply (rep_sub cap _ []).
    - by eapply rb_is_valid_ok.
    - intros p Hp. pose proof (rb_height _ _ _ _ Hok) as Hh. rewrite (rep_root _ _ _ HR) in Hp.
      apply (rep_path cap _ []) in Hp; [|done]. etrans; [|exact Hh]. apply N.pow_le_mono_r; unfold lengthN; lia.
  Qed.
End main.
Section reversed.
  Context `{Profile} {K V : Type} (cmp : K → K → comparison) (HO : OrdLaws cmp) (ms : nat) (d : K * V)
    (H0 : (0 < ms)%nat) (Hw : N.of_nat ms + 1 < W32).
  Lemma rb_reversed_fact ops k v :
    let t := (history (rb_step cmp) ops (rb_new ms d)).2 in
    rb_get (λ a b, cmp b a) t k = Val (Some v) ↔
    rb_root t ≠ 0 ∧ ∃ k0, rb_get_node t (rb_root t) = Val (k0, v) ∧ cmp k k0 = Eq.
  Proof using HO H0 Hw.
    intros t. destruct (rb_reach cmp HO ms d ops H0 Hw) as (U & l & _ & [HR Hb Hs] & _). unfold rb_after in *. fold t in HR.
    rewrite (rbl_get (λ a b, cmp b a) (N.of_nat ms) t U k) by by split. unfold bt_get.
    rewrite bt_reversed by (rewrite ?bt_seq_of; done). rewrite (rep_root _ _ _ HR).
    destruct U as [|m a i kv b]; cbn [bt_of root].
    - split; [done|]. by intros [? _].
    - assert (i ≠ 0) as Hi by (by eapply (rep_nz (N.of_nat ms) t _ [] _ _ _ _ _ HR)).
      rewrite (rep_node (N.of_nat ms) t _ [] _ _ _ _ _ HR eq_refl). destruct (cmp k kv.1) eqn:He; split.
      + intros [= <-]. split; [done|]. exists kv.1. by destruct kv.
      + intros (_ & k0 & [= ->] & _). done.
      + done.
      + intros (_ & k0 & [= ->] & ?). cbn in *. congruence.
      + done.
      + intros (_ & k0 & [= ->] & ?). cbn in *. congruence.
  Qed.
End reversed.
