(** * The unit tests (for C64) *)
From Verif Require Import RBMain RBProps.
From Verif Require Import FuzzProof FuzzTrees MapProof TestModel TestProof TestTrees.
From Verif Require Import DequeProof UnitModel.

Lemma wp_mono' {S A} (m : M S A) s (Q Q' : A → S → Prop) : (∀ a s', Q a s' → Q' a s') → wp m s Q → wp m s Q'.
Proof. intros. by eapply wp_mono. Qed.
Lemma wp_rounds {S} n (body : M S ()) (I : nat → S → Prop) st :
  I 0%nat st → (∀ k st, (k < n)%nat → I k st → wp body st (λ _ st', I (Datatypes.S k) st')) → wp (times n body) st (λ _ st', I n st').
Proof.
  revert I st. induction n as [|n IH]; intros I st H0 Hs; cbn [times]; [exact H0|].
  apply wp_bind. eapply wp_mono'; [|apply (Hs 0%nat); [lia|done]]. intros [] st1 H1.
  apply (IH (λ k, I (Datatypes.S k))); [done|]. intros k st2 Hk Hi. apply Hs; [lia|done].
Qed.

Section deque.
  Context `{Profile} {T : Type} `{EqDecision T} (r_t : N → T) (r_n : N → N) (cap : N).
  Notation dtest := (@dtest T).
  Definition dat (c : N) (st : dtest) : Prop := DSim cap (t_v st, c) (t_q st).
  Lemma dq_call {A} (m : M (deque T) A) o (g : A → dq_out T) d s x :
    dq_step o = (a ← m; mret (g a)) → DSim cap s d → seq_room s.2 → (dq_spec cap o s).1 = Val x →
    ∃ a d', m d = Ret a d' ∧ g a = x ∧ DSim cap (dq_spec cap o s).2 d'.
  Proof.
    intros Ho Hd Hr Hx. destruct (dq_step_sim cap o s d Hd Hr) as [H1 H2]. rewrite Hx in H1. rewrite Ho in H1, H2.
    unfold call, mbind, M_bind in H1, H2. destruct (m d) as [a d'|e d']; [|done]. exists a, d'. split; [done|].
    cbn in H1, H2. by injection H1 as ->.
  Qed.
  Lemma wp_u_draw {A} (f : N → A) st (Q : A → dtest → Prop) : Q (f (t_draws st)) (DTest (t_q st) (t_draws st + 1) (t_v st)) → wp (u_draw f) st Q.
  Proof. intros HQ. done. Qed.
  Lemma wp_u_range lo hi st (Q : N → dtest → Prop) :
    lo < hi → (∀ b st', lo ≤ b → b < hi → t_q st' = t_q st → t_v st' = t_v st → Q b st') → wp (u_range r_n lo hi) st Q.
  Proof.
    intros Hl HQ. unfold u_range. apply wp_bind, wp_u_draw. rewrite decide_True by done. apply wp_ret.
    pose proof (N.mod_lt (r_n (t_draws st)) (hi - lo) ltac:(lia)) as Hm. revert Hm. generalize (r_n (t_draws st) mod (hi - lo)).
    intros r Hm. apply HQ; [lia|lia|done|done].
  Qed.
  Lemma wp_on {A} (m : M (deque T) A) st (Q : A → dtest → Prop) a d' : m (t_q st) = Ret a d' → Q a (set_q d' st) → wp (on_q m) st Q.
  Proof. intros Hm HQ. unfold on_q, wp, zoom. by rewrite Hm. Qed.

  Lemma push_back_step c st : dat c st → seq_room c → lengthN (t_v st) < cap →
    wp (u_push_back r_t) st (λ _ st', dat (c + 1) st' ∧ length (t_v st') = Datatypes.S (length (t_v st))).
  Proof.
    intros Hd Hr Hl. unfold u_push_back. apply wp_bind, wp_u_draw, wp_bind.
    destruct (dq_call (dq_push_back (r_t (t_draws st))) (DPushBack (r_t (t_draws st))) (λ _, DUnit) (t_q st) (t_v st, c) DUnit) as ([] & d' & Hp & _ & Hd');
      [done|done|done|cbn; by rewrite decide_True|].
    eapply wp_on; [exact Hp|]. apply wp_modify. cbn in Hd'. rewrite decide_True in Hd' by done. split; [exact Hd'|].
    cbn. rewrite app_length. cbn. lia.
  Qed.
  Lemma push_front_step c st : dat c st → seq_room c → lengthN (t_v st) < cap →
    wp (u_push_front r_t) st (λ _ st', dat (c + 1) st' ∧ length (t_v st') = Datatypes.S (length (t_v st))).
  Proof.
    intros Hd Hr Hl. unfold u_push_front. apply wp_bind, wp_u_draw, wp_bind.
    destruct (dq_call (dq_push_front (r_t (t_draws st))) (DPushFront (r_t (t_draws st))) (λ _, DUnit) (t_q st) (t_v st, c) DUnit) as ([] & d' & Hp & _ & Hd');
      [done|done|done|cbn; by rewrite decide_True|].
    eapply wp_on; [exact Hp|]. apply wp_modify. cbn in Hd'. rewrite decide_True in Hd' by done. split; [exact Hd'|]. done.
  Qed.
  Lemma pop_front_step c st : dat c st → seq_room c → t_v st ≠ [] →
    wp u_pop_front st (λ _ st', dat (c + 1) st' ∧ length (t_v st) = Datatypes.S (length (t_v st'))).
  Proof.
    intros Hd Hr Hl. destruct st as [q n v]. cbn in Hl. destruct v as [|x v]; [done|]. unfold u_pop_front. apply wp_bind.
    destruct (dq_call dq_pop_front DPopFront DVal q (x :: v, c) (DVal (Some x))) as (a & d' & Hp & Ha & Hd'); [done|done|done|done|].
    injection Ha as ->. eapply wp_on; [exact Hp|]. apply wp_bind, wp_mget, wp_bind. apply wp_massert; [by apply bool_decide_eq_true|].
    apply wp_modify. by split.
  Qed.
  Lemma pop_back_step c st : dat c st → seq_room c → t_v st ≠ [] →
    wp u_pop_back st (λ _ st', dat (c + 1) st' ∧ length (t_v st) = Datatypes.S (length (t_v st'))).
  Proof.
    intros Hd Hr Hl. destruct st as [q n v]. cbn in Hl. destruct (unsnoc v) as [[v' x]|] eqn:E; [|by apply unsnoc_None in E].
    apply unsnoc_Some in E as ->. unfold u_pop_back. apply wp_bind.
    assert (∀ y, dq_spec cap DPopBack (v' ++ [x], y) = (Val (DVal (Some x)), (v', y + 1))) as Hs.
    { intros y. cbn. destruct (unsnoc (v' ++ [x])) as [[v2 x2]|] eqn:E.
      - apply unsnoc_Some in E. apply app_inj_tail in E as [-> ->]. done.
      - apply unsnoc_None in E. by destruct v'. }
    destruct (dq_call dq_pop_back DPopBack DVal q (v' ++ [x], c) (DVal (Some x))) as (a & d' & Hp & Ha & Hd'); [done|done|done|by rewrite Hs|].
    rewrite Hs in Hd'. injection Ha as ->. eapply wp_on; [exact Hp|]. apply wp_bind, wp_mget, wp_bind.
    apply wp_massert; [apply bool_decide_eq_true; cbn; by rewrite last_snoc|].
    apply wp_modify. unfold dat. cbn [t_v t_q set_v set_q]. rewrite app_length. cbn [length].
    replace (length v' + 1 - 1)%nat with (length v') by lia. rewrite take_app. split; [exact Hd'|]. lia.
  Qed.

  Lemma zip_drive next next' it (v : list T) (rs : list (option (N * T))) sc :
    sc = replicate (Datatypes.S (length v)) Fwd → drive next next' sc it = Val rs → map (option_map snd) rs = map Some v ++ [None] → u_zip next it v = Val ().
  Proof.
    intros ->. revert it rs. induction v as [|x v IH]; intros it rs Hd Hm.
    - cbn in *. by destruct (next it).
    - change ((r ← next it; rs ← drive next next' (replicate (Datatypes.S (length v)) Fwd) r.2; Val (r.1 :: rs)) = Val rs) in Hd.
      cbn [u_zip]. unfold mbind, res_bind in Hd |- *. destruct (next it) as [r|]; [|done].
      destruct (drive next next' _ r.2) as [rs'|] eqn:Ed; [|done]. injection Hd as <-. cbn in Hm. injection Hm as Hx Hm.
      destruct r as [[y|] it']; [|done]. cbn in Hx, Ed |- *. injection Hx as Hx. rewrite decide_True by done. by apply (IH _ rs').
  Qed.
  Lemma zip_drive_back next next' it (v : list T) (rs : list (option (N * T))) sc :
    sc = replicate (Datatypes.S (length v)) Bwd → drive next' next sc it = Val rs → map (option_map snd) rs = map Some v ++ [None] → u_zip next it v = Val ().
  Proof.
    intros ->. revert it rs. induction v as [|x v IH]; intros it rs Hd Hm.
    - cbn in *. by destruct (next it).
    - change ((r ← next it; rs ← drive next' next (replicate (Datatypes.S (length v)) Bwd) r.2; Val (r.1 :: rs)) = Val rs) in Hd.
      cbn [u_zip]. unfold mbind, res_bind in Hd |- *. destruct (next it) as [r|]; [|done].
      destruct (drive next' next _ r.2) as [rs'|] eqn:Ed; [|done]. injection Hd as <-. cbn in Hm. injection Hm as Hx Hm.
      destruct r as [[y|] it']; [|done]. cbn in Hx, Ed |- *. injection Hx as Hx. rewrite decide_True by done. by apply (IH _ rs').
  Qed.
  Lemma dat_iterate c st sc : dat c st → ∃ rs, dq_iterate sc (t_q st) = Val rs ∧ map (option_map snd) rs = de_spec sc (t_v st).
  Proof.
    intros (_ & es & Ho & He). cbn in He. exists (de_spec sc es). split; [by eapply dq_iterate_ok|]. by rewrite de_spec_map, He.
  Qed.
  Lemma same_step c st : dat c st → wp u_same st (λ _ st', st' = st).
  Proof.
    intros Hd. unfold u_same. apply wp_bind, wp_mget, wp_bind.
    destruct (dat_iterate c st (replicate (Datatypes.S (length (t_v st))) Fwd) Hd) as (rs & Hrs & Hm).
    eapply wp_lift.
    { eapply zip_drive; [reflexivity|exact Hrs|]. rewrite Hm.
      replace (Datatypes.S (length (t_v st))) with (length (t_v st) + 1)%nat by lia. rewrite replicate_add, de_fwd_app by lia.
      rewrite firstn_all, drop_all. by rewrite de_nil. }
    destruct (dat_iterate c st (replicate (Datatypes.S (length (t_v st))) Bwd) Hd) as (rs' & Hrs' & Hm').
    eapply wp_lift; [|done]. eapply zip_drive_back; [|exact Hrs'|]; [by rewrite rev_length|]. rewrite Hm'.
    replace (Datatypes.S (length (t_v st))) with (length (t_v st) + 1)%nat by lia. by rewrite replicate_add, de_bwd_app, de_nil.
  Qed.
  Lemma both_refl b n (v : list T) : (b ≤ length v)%nat → n = length v →
    u_both b n (de_spec (de_script b n) v) (de_spec (de_script b n) v) = true.
  Proof.
    intros Hb ->. unfold u_both. rewrite bool_decide_eq_true_2 by done. rewrite andb_true_l.
    assert (all_none (drop (b + (length v - b)) (de_spec (de_script b (length v)) v)) = true) as ->; [|done].
    unfold de_script. rewrite de_fwd_app by done. rewrite <- (drop_length v b), de_bwd_app, de_nil, app_assoc.
    rewrite drop_app_alt; [done|]. rewrite app_length, !map_length, rev_length, take_length, drop_length. lia.
  Qed.
  Lemma iter_step c st n : dat c st → n = length (t_v st) → (3 ≤ n)%nat → wp (u_iter r_n n) st (λ _ st', dat c st' ∧ t_v st' = t_v st).
  Proof.
    intros Hd Hn H3. unfold u_iter. apply wp_bind, wp_u_range; [lia|]. intros b st' Hb1 Hb2 Hq Hv. apply wp_bind, wp_mget.
    destruct (dat_iterate c st (de_script (N.to_nat b) n) Hd) as (rs & Hrs & Hm). rewrite Hq, Hv.
    apply wp_bind. eapply wp_lift; [exact Hrs|]. apply wp_massert. { rewrite Hm. apply both_refl; [lia|done]. }
    split; [|done]. unfold dat. by rewrite Hq, Hv.
  Qed.
  Lemma iter_mut_step c st n : dat c st → n = length (t_v st) → (3 ≤ n)%nat → wp (u_iter_mut r_n n) st (λ _ st', dat c st' ∧ t_v st' = t_v st).
  Proof.
    intros Hd Hn H3. unfold u_iter_mut. apply wp_bind, wp_u_range; [lia|]. intros b st' Hb1 Hb2 Hq Hv. apply wp_bind, wp_mget, wp_bind.
    destruct Hd as (Hsq & es & Ho & He). cbn in Hsq, He.
    assert (∀ (l : list fb) (xs : list (N * T)), de_mut_spec uent (map (λ e, (e, λ x : T, x)) l) xs = (de_spec l xs, xs)) as Hid.
    { clear. intros l. induction l as [|e l IH]; intros xs; [done|]. cbn. destruct e.
      - destruct xs as [|x xs]; cbn; rewrite IH; [done|]. by destruct x.
      - destruct (unsnoc xs) as [[ys y]|] eqn:E; cbn; rewrite IH; [|by apply unsnoc_None in E as ->]. apply unsnoc_Some in E as ->. by destruct y. }
    assert (wp (dq_iterate_mut (map (λ e, (e, λ x : T, x)) (de_script (N.to_nat b) n))) (t_q st) (λ rs d', map (option_map snd) rs = de_spec (de_script (N.to_nat b) n) (t_v st) ∧ DSim cap (t_v st, c) d')) as Hw.
    { eapply dq_iterate_mut_ok; [exact Ho|]. intros d' Ho' Hs'. rewrite Hid in Ho' |- *. cbn [fst snd] in *.
      split; [by rewrite de_spec_map, He|]. split; [cbn; congruence|]. by exists es. }
    destruct (wp_elim _ _ _ Hw) as (rs & d' & Hr & Hm & Hd'). eapply wp_on; [rewrite Hq; exact Hr|].
    rewrite Hv. apply wp_massert. { rewrite Hm. apply both_refl; [lia|done]. }
    split; [|done]. unfold dat. cbn. by rewrite Hv.
  Qed.
  Lemma empty_step c st : dat c st → t_v st = [] → wp u_empty st (λ _ st', st' = st).
  Proof.
    intros Hd Hv. unfold u_empty. apply wp_bind, wp_mget. destruct Hd as (_ & es & Ho & He). cbn in He. rewrite Hv in He.
    apply wp_massert; [|done]. rewrite (DOK_empty _ _ _ Ho), Hv. by destruct es.
  Qed.

  Lemma fill_steps c st n : dat c st → t_v st = [] → N.of_nat (n + n) ≤ cap → (∀ i, i < N.of_nat (n + n) → seq_room (c + i)) →
    ∀ (m : () → M dtest ()) Q, (∀ st', dat (c + N.of_nat (n + n)) st' → length (t_v st') = (n + n)%nat → wp (m ()) st' Q) →
    wp (times n (u_push_back r_t);; times n (u_push_front r_t);; m ()) st Q.
  Proof.
    intros Hd Hv Hc Hr m Q HQ. apply wp_bind.
    eapply wp_mono'; [|apply (wp_rounds n _ (λ k st, dat (c + N.of_nat k) st ∧ length (t_v st) = k))].
    - intros [] st1 [Hd1 Hl1]. apply wp_bind.
      eapply wp_mono'; [|apply (wp_rounds n _ (λ k st, dat (c + N.of_nat n + N.of_nat k) st ∧ length (t_v st) = (n + k)%nat))].
      + intros [] st2 [Hd2 Hl2]. apply HQ; [|done]. by replace (c + N.of_nat (n + n)) with (c + N.of_nat n + N.of_nat n) by lia.
      + split; [|lia]. by replace (c + N.of_nat n + N.of_nat 0) with (c + N.of_nat n) by lia.
      + intros k st2 Hk [Hd2 Hl2]. eapply wp_mono'; [|apply (push_front_step _ _ Hd2)].
        * intros [] st3 [Hd3 Hl3]. split; [|lia]. by replace (c + N.of_nat n + N.of_nat (Datatypes.S k)) with (c + N.of_nat n + N.of_nat k + 1) by lia.
        * replace (c + N.of_nat n + N.of_nat k) with (c + N.of_nat (n + k)) by lia. apply Hr. lia.
        * unfold lengthN. lia.
    - split; [|by rewrite Hv]. by replace (c + N.of_nat 0) with c by lia.
    - intros k st2 Hk [Hd2 Hl2]. eapply wp_mono'; [|apply (push_back_step _ _ Hd2)].
      + intros [] st3 [Hd3 Hl3]. split; [|lia]. by replace (c + N.of_nat (Datatypes.S k)) with (c + N.of_nat k + 1) by lia.
      + apply Hr. lia.
      + unfold lengthN. lia.
  Qed.
  Lemma drain_steps (pop : M dtest ()) c st n : dat c st → length (t_v st) = n → (∀ i, i < N.of_nat n → seq_room (c + i)) →
    (∀ c st, dat c st → seq_room c → t_v st ≠ [] → wp pop st (λ _ st', dat (c + 1) st' ∧ length (t_v st) = Datatypes.S (length (t_v st')))) →
    wp (times n pop) st (λ _ st', dat (c + N.of_nat n) st' ∧ t_v st' = []).
  Proof.
    intros Hd Hl Hr Hp. eapply wp_mono'; [|apply (wp_rounds n _ (λ k st, dat (c + N.of_nat k) st ∧ (length (t_v st) + k = n)%nat))].
    - intros [] st1 [Hd1 Hl1]. split; [done|]. destruct (t_v st1); [done|]. cbn in Hl1. lia.
    - split; [|lia]. by replace (c + N.of_nat 0) with c by lia.
    - intros k st1 Hk [Hd1 Hl1]. eapply wp_mono'; [|apply (Hp _ _ Hd1)].
      + intros [] st2 [Hd2 Hl2]. split; [|lia]. by replace (c + N.of_nat (Datatypes.S k)) with (c + N.of_nat k + 1) by lia.
      + apply Hr. lia.
      + intros E. rewrite E in Hl1. cbn in Hl1. lia.
  Qed.
End deque.

Lemma rounds_fail {S} n j (body : M S ()) (I : nat → S → Prop) st :
  I 0%nat st → (j < n)%nat → (∀ k st, (k < j)%nat → I k st → wp body st (λ _ st', I (Datatypes.S k) st')) →
  (∀ st, I j st → ∃ st', body st = Fail Panic st') → ∃ st', times n body st = Fail Panic st'.
Proof.
  revert I st n. induction j as [|j IH]; intros I st n H0 Hj Hs Hf; (destruct n as [|n]; [lia|]); cbn [times].
  - destruct (Hf st H0) as [st' He]. exists st'. unfold mbind, M_bind. by rewrite He.
  - destruct (wp_elim _ _ _ (Hs 0%nat st ltac:(lia) H0)) as ([] & st1 & He & H1).
    destruct (IH (λ k, I (Datatypes.S k)) st1 n H1 ltac:(lia)) as [st' He'].
    + intros k st2 Hk Hi. apply Hs; [lia|done].
    + exact Hf.
    + exists st'. unfold mbind, M_bind. by rewrite He.
Qed.

Section deque_main.
  Context `{Profile} {T : Type} `{EqDecision T} (r_t : N → T) (r_n : N → N).
  Lemma test_deque_ok n ms (d : T) : (2 ≤ n)%nat → (n + n ≤ ms)%nat → N.of_nat ms + 1 < W32 →
    ∃ st, test_deque r_t r_n n (test_deque_start (dq_new ms d)) = Ret () st ∧ dq_len (t_q st) = 0.
  Proof.
    intros Hn Hms Hw. set (cap := N.of_nat ms).
    assert (∀ c i, c + i < 4 * W32 → seq_room (c + i)) as Hroom. { intros c i Hi _. unfold W64, W32 in *. lia. }
    assert (dat cap 0 (test_deque_start (dq_new ms d))) as H0. { split; [done|]. exists []. split; [by apply dq_new_ok|done]. }
    assert (wp (test_deque r_t r_n n) (test_deque_start (dq_new ms d)) (λ _ st, dq_len (t_q st) = 0)) as Hwp.
    2: { destruct (wp_elim _ _ _ Hwp) as ([] & st & Hr & Hq). by exists st. }
    unfold test_deque.
    apply (fill_steps r_t cap 0 _ n H0 eq_refl) with (m := λ _, _); [unfold cap; lia|intros; apply Hroom; unfold cap in *; lia|].
    intros st1 Hd1 Hl1. apply wp_bind. eapply wp_mono'; [|apply (same_step cap _ _ Hd1)]. intros [] st2 ->.
    apply wp_bind. eapply wp_mono'; [|apply (iter_step r_n cap _ _ (n + n) Hd1); lia]. intros [] st2 [Hd2 Hv2]. rewrite <- Hv2 in Hl1. clear Hd1 Hv2.
    apply wp_bind. eapply wp_mono'; [|apply (iter_mut_step r_n cap _ _ (n + n) Hd2); lia]. intros [] st3 [Hd3 Hv3]. rewrite <- Hv3 in Hl1. clear Hd2 Hv3.
    apply wp_bind. eapply wp_mono'; [|apply (drain_steps cap u_pop_back _ _ (n + n) Hd3 Hl1); [intros; apply Hroom; unfold cap in *; lia|apply pop_back_step]].
    intros [] st4 [Hd4 Hv4].
    apply wp_bind. eapply wp_mono'; [|apply (empty_step cap _ _ Hd4 Hv4)]. intros [] ? ->.
    apply (fill_steps r_t cap _ _ n Hd4 Hv4) with (m := λ _, _); [unfold cap; lia|intros; apply Hroom; unfold cap in *; lia|].
    intros st5 Hd5 Hl5. apply wp_bind. eapply wp_mono'; [|apply (same_step cap _ _ Hd5)]. intros [] ? ->.
    apply wp_bind. eapply wp_mono'; [|apply (drain_steps cap u_pop_front _ _ (n + n) Hd5 Hl5); [intros; apply Hroom; unfold cap in *; lia|apply pop_front_step]].
    intros [] st6 [Hd6 Hv6]. eapply wp_mono'; [|apply (empty_step cap _ _ Hd6 Hv6)]. intros [] ? ->.
    destruct Hd6 as (_ & es & Ho & He). cbn in He. rewrite Hv6 in He. rewrite (DOK_len _ _ _ Ho). by destruct es.
  Qed.

  Lemma push_full_back cap c st : dat cap c st → cap ≤ lengthN (t_v st) → ∃ st', u_push_back r_t st = Fail Panic st'.
  Proof.
    intros (_ & es & Ho & He) Hl. cbn in He. unfold u_push_back, u_draw, on_q, zoom, mbind, M_bind, mget, modify, mret, M_ret.
    destruct (push_full cap (t_q st) es (r_t (t_draws st))) as [Hp _]; [done| |].
    { destruct Ho as [Hh _ _]. apply CH_len_le in Hh. rewrite dseg_length in Hh. rewrite <- He in Hl. unfold lengthN in *. rewrite map_length in Hl. lia. }
    cbn [t_q t_v t_draws]. rewrite Hp. by eexists.
  Qed.
  Lemma push_full_front cap c st : dat cap c st → cap ≤ lengthN (t_v st) → ∃ st', u_push_front r_t st = Fail Panic st'.
  Proof.
    intros (_ & es & Ho & He) Hl. cbn in He. unfold u_push_front, u_draw, on_q, zoom, mbind, M_bind, mget, modify, mret, M_ret.
    destruct (push_full cap (t_q st) es (r_t (t_draws st))) as [_ Hp]; [done| |].
    { destruct Ho as [Hh _ _]. apply CH_len_le in Hh. rewrite dseg_length in Hh. rewrite <- He in Hl. unfold lengthN in *. rewrite map_length in Hl. lia. }
    cbn [t_q t_v t_draws]. rewrite Hp. by eexists.
  Qed.
  Lemma test_deque_small n ms (d : T) : (ms < n + n)%nat → N.of_nat ms + 1 < W32 →
    ∃ st, test_deque r_t r_n n (test_deque_start (dq_new ms d)) = Fail Panic st.
  Proof.
    intros Hms Hw. set (cap := N.of_nat ms).
    assert (∀ i, i < W32 → seq_room i) as Hroom. { intros i Hi _. unfold W64, W32 in *. lia. }
    assert (dat cap 0 (test_deque_start (dq_new ms d))) as H0. { split; [done|]. exists []. split; [by apply dq_new_ok|done]. }
    assert (∀ n' k st, (k < n')%nat → (n' ≤ ms)%nat → dat cap (N.of_nat k) st ∧ length (t_v st) = k →
      wp (u_push_back r_t) st (λ _ st', dat cap (N.of_nat (Datatypes.S k)) st' ∧ length (t_v st') = Datatypes.S k)) as Hb.
    { intros n' k st Hk Hn' [Hd Hl]. eapply wp_mono'; [|apply (push_back_step r_t cap _ _ Hd)].
      - intros [] st' [Hd' Hl']. split; [|lia]. by replace (N.of_nat (Datatypes.S k)) with (N.of_nat k + 1) by lia.
      - apply Hroom. lia.
      - unfold lengthN, cap. lia. }
    unfold test_deque. destruct (decide (ms < n)%nat) as [Hn|Hn].
    - destruct (rounds_fail n ms (u_push_back r_t) (λ k st, dat cap (N.of_nat k) st ∧ length (t_v st) = k) (test_deque_start (dq_new ms d))) as [st' He]; [done|done| | |].
      + intros k st Hk. by apply (Hb ms).
      + intros st [Hd Hl]. apply (push_full_back cap _ _ Hd). unfold lengthN, cap. lia.
      + exists st'. unfold mbind, M_bind. by rewrite He.
    - pose proof (wp_rounds n (u_push_back r_t) (λ k st, dat cap (N.of_nat k) st ∧ length (t_v st) = k) (test_deque_start (dq_new ms d)) (conj H0 eq_refl)) as Hfill.
      specialize (Hfill (λ k st Hk, Hb n k st Hk ltac:(lia))). destruct (wp_elim _ _ _ Hfill) as ([] & st1 & He1 & Hd1 & Hl1).
      destruct (rounds_fail n (ms - n) (u_push_front r_t) (λ k st, dat cap (N.of_nat (n + k)) st ∧ length (t_v st) = (n + k)%nat) st1) as [st' He].
      + by rewrite Nat.add_0_r.
      + lia.
      + intros k st Hk [Hd Hl]. eapply wp_mono'; [|apply (push_front_step r_t cap _ _ Hd)].
        * intros [] st' [Hd' Hl']. split; [|lia]. by replace (N.of_nat (n + Datatypes.S k)) with (N.of_nat (n + k) + 1) by lia.
        * apply Hroom. lia.
        * unfold lengthN, cap. lia.
      + intros st [Hd Hl]. apply (push_full_front cap _ _ Hd). unfold lengthN, cap. lia.
      + exists st'. unfold mbind, M_bind. by rewrite He1, He.
  Qed.
  Lemma test_deque_tiny ms (d : T) : (2 ≤ ms)%nat → N.of_nat ms + 1 < W32 →
    ∃ st, test_deque r_t r_n 1 (test_deque_start (dq_new ms d)) = Fail Panic st.
  Proof.
    intros Hms Hw. set (cap := N.of_nat ms).
    assert (dat cap 0 (test_deque_start (dq_new ms d))) as H0. { split; [done|]. exists []. split; [by apply dq_new_ok|done]. }
    assert (wp (times 1 (u_push_back r_t);; times 1 (u_push_front r_t);; u_same) (test_deque_start (dq_new ms d)) (λ _ _, True)) as Hwp.
    { apply (fill_steps r_t cap 0 _ 1 H0 eq_refl) with (m := λ _, _); [unfold cap; lia|intros i Hi _; unfold W64, W32 in *; lia|].
      intros st1 Hd1 Hl1. eapply wp_mono'; [|apply (same_step cap _ _ Hd1)]. done. }
    destruct (wp_elim _ _ _ Hwp) as ([] & st & Hr & _). unfold test_deque, mbind, M_bind in *. unfold u_iter, u_range, u_draw, mbind, M_bind, modify, mget.
    destruct (times 1 (u_push_back r_t) _) as [[] st1|]; [|done]. destruct (times 1 (u_push_front r_t) st1) as [[] st2|]; [|done]. rewrite Hr.
    unfold mret, M_ret. cbv beta iota. rewrite decide_False by (cbn; lia). by eexists.
  Qed.
End deque_main.

(** ** The deletion tests *)
Lemma wpf_bind2 {T A B} (m : M T A) (f : A → M T B) s Q (E : err → T → Prop) : wpf m s (λ a s', wpf (f a) s' Q E) E → wpf (m ≫= f) s Q E.
Proof. unfold wpf, mbind, M_bind. by destruct (m s). Qed.

Lemma history_app_2 {S O A} (step : O → M S A) o1 o2 s : (history step o2 (history step o1 s).2).2 = (history step (o1 ++ o2) s).2.
Proof.
  revert s. induction o1 as [|o o1 IH]; intros s; [done|]. cbn [app history]. destruct (call (step o) s) as [r s1]. specialize (IH s1).
  destruct (history step o1 s1), (history step (o1 ++ o2) s1). exact IH.
Qed.

Section lists.
  Context {K V : Type} (cmp : K → K → comparison) (HO : OrdLaws cmp).
  Definition distinct (keys : list K) : Prop := ∀ i j a b, keys !! i = Some a → keys !! j = Some b → cmp a b = Eq → i = j.
  Lemma distinct_cons k keys : distinct (k :: keys) ↔ Forall (λ k', cmp k k' ≠ Eq) keys ∧ distinct keys.
  Proof using HO.
    split.
    - intros Hd. split.
      + apply Forall_lookup. intros i x Hx E. by specialize (Hd 0%nat (S i) k x eq_refl Hx E).
      + intros i j a b Ha Hb E. specialize (Hd (S i) (S j) a b Ha Hb E). lia.
    - intros [Hk Hd] [|i] [|j] a b Ha Hb E; [done| | |].
      + injection Ha as <-. exfalso. by eapply (proj1 (Forall_lookup _ _) Hk j b Hb).
      + injection Hb as <-. exfalso. eapply (proj1 (Forall_lookup _ _) Hk i a Ha). by apply (cmp_eq_sym cmp HO).
      + f_equal. by eapply Hd.
  Qed.
  Lemma om_get_absent k (l : list (K * V)) : Forall (λ k', cmp k k' ≠ Eq) l.*1 ↔ om_get cmp k l = None.
  Proof using HO.
    split.
    - intros Ha. unfold om_get. by rewrite (find_none_absent cmp).
    - induction l as [|x l IH]; [constructor|]. rewrite fmap_cons. unfold om_get in *. cbn [om_find]. intros Hn. constructor; [by destruct (cmp k x.1)|].
      apply IH. by destruct (cmp k x.1).
  Qed.
  Lemma om_find_get k (l : list (K * V)) : om_find cmp k l = None ↔ om_get cmp k l = None.
  Proof using Type. unfold om_get. by destruct (om_find cmp k l). Qed.
End lists.

Section delete.
  Context `{Profile} {K V : Type} (cmp : K → K → comparison) (HO : OrdLaws cmp) (ms : nat) (d : K * V) (z : V).
  Context (H0 : (0 < ms)%nat) (Hw : N.of_nat ms + 1 < W32).
  Notation cap := (N.of_nat ms).
  Notation ops := (list (om_op K V)).
  Definition Tr (o : ops) : rbt K V := rb_after cmp ms d (map Some o).
  Definition Ls (o : ops) : list (K * V) := (spec_history (om_spec cmp cap) o []).2.
  Definition found (l : list (K * V)) (k : K) : Prop := om_get cmp k l ≠ None.

  Lemma step_history (o : ops) s : history (rb_step cmp) (map Some o) s = history (om_step (rb_api cmp)) o s.
  Proof using Type.
    revert s. induction o as [|x o IH]; intros s; [done|]. cbn [map history]. change (rb_step cmp (Some x)) with (om_step (rb_api cmp) x).
    destruct (call _ s). by rewrite IH.
  Qed.
  Lemma Tr_call o x : (call (om_step (rb_api cmp) x) (Tr o)).1 = (om_spec cmp cap x (Ls o)).1 ∧
    (call (om_step (rb_api cmp) x) (Tr o)).2 = Tr (o ++ [x]) ∧ Ls (o ++ [x]) = (om_spec cmp cap x (Ls o)).2.
  Proof using HO H0 Hw.
    unfold Tr, rb_after, Ls. rewrite !step_history. pose proof (C19_rb_is_map cmp HO ms d H0 Hw (o ++ [x])) as He.
    rewrite history_snoc', spec_history_snoc' in He |- *. cbn [fst snd] in *. apply app_inj_tail in He as [_ He]. done.
  Qed.
  Lemma Ls_inv o : ascending cmp (Ls o) ∧ lengthN (Ls o) ≤ cap.
  Proof using HO.
    clear H0 Hw. unfold Ls. induction o as [|x o IH] using rev_ind; [split; [constructor|unfold lengthN; cbn; lia]|].
    rewrite spec_history_snoc'. cbn [snd]. destruct (om_spec_inv cmp HO (λ _, True) cap x (spec_history (om_spec cmp cap) o []).2) as (Ha & Hl & _); [by destruct x| |done].
    destruct IH as [Ha Hl]. split_and!; [done..|]. by apply Forall_true.
  Qed.
  Lemma Tr_valid o : rb_is_valid (Tr o) = Val true.
  Proof using HO H0 Hw. apply (C21_rb_valid cmp HO ms d H0 Hw). Qed.
  Lemma wp_valid o (Q : () → rbt K V → Prop) : Q () (Tr o) → wp (u_valid (rb_drain cmp)) (Tr o) Q.
  Proof using HO H0 Hw. intros HQ. unfold u_valid. apply wp_bind. eapply wp_gets; [apply Tr_valid|]. by apply wp_massert. Qed.
  Lemma Tr_len o : rb_len (Tr o) = lengthN (Ls o).
  Proof using HO H0 Hw. destruct (Tr_call o MLen) as [He _]. cbn in He. by injection He. Qed.
  Lemma Tr_new : rb_new ms d = Tr [].
  Proof using Type. done. Qed.

  Lemma Tr_insert o k : ∃ r, rb_insert cmp k z (Tr o) = Ret r (Tr (o ++ [MInsert k z])) ∧
    match r with
    | Some _ => Ls (o ++ [MInsert k z]) = om_insert cmp k z (Ls o) ∧ (found (Ls o) k ∨ lengthN (Ls o) < cap)
    | None => om_get cmp k (Ls o) = None ∧ ¬ lengthN (Ls o) < cap
    end.
  Proof using HO H0 Hw.
    destruct (Tr_call o (MInsert k z)) as (H1 & H2 & H3). unfold call, om_step, mbind, M_bind in H1, H2. cbn [rb_api a_insert] in H1, H2.
    cbn [om_spec] in H1, H3. destruct (rb_insert cmp k z (Tr o)) as [r t|e t]; cbn in H1, H2.
    - exists r. split; [by rewrite H2|]. destruct (om_find cmp k (Ls o)) eqn:Ef.
      + cbn in H1, H3. destruct r; [|done]. split; [done|]. left. unfold found. rewrite <- om_find_get. by rewrite Ef.
      + destruct (decide (lengthN (Ls o) < cap)) as [E|E]; cbn in H1, H3; destruct r; try done; [by split; [|right]|].
        split; [by apply om_find_get|done].
    - exfalso. destruct (om_find cmp k (Ls o)); [done|]. by destruct (decide _).
  Qed.
  Lemma Tr_remove o k : rb_remove cmp k (Tr o) = Ret (om_get cmp k (Ls o)) (Tr (o ++ [MRemove k])) ∧ Ls (o ++ [MRemove k]) = om_remove cmp k (Ls o).
  Proof using HO H0 Hw.
    destruct (Tr_call o (MRemove k)) as (H1 & H2 & H3). split; [|exact H3]. unfold call, om_step, mbind, M_bind in H1, H2. cbn [rb_api a_remove] in H1, H2.
    destruct (rb_remove cmp k (Tr o)) as [r t|e t]; cbn in H1, H2; [|done]. injection H1 as ->. by rewrite H2.
  Qed.

  Definition fits (keys : list K) (l : list (K * V)) : Prop :=
    distinct cmp keys ∧ Forall (λ k, om_get cmp k l = None) keys ∧ lengthN l + lengthN keys ≤ cap.
  Definition ins (keys : list K) : ops := map (λ k, MInsert k z) keys.
  Lemma ins_addr o k keys i t1 : rb_insert cmp k z (Tr o) = Ret (Some i) t1 → t1 = Tr (o ++ [MInsert k z]) →
    rb_get_addr cmp (Tr ((o ++ [MInsert k z]) ++ ins keys)) k = Val i.
  Proof using HO H0 Hw.
    intros Hi ->. destruct (C24_rb_addresses cmp HO ms d H0 Hw (map Some o) (map Some (ins keys)) k z i _ Hi) as (k0 & v' & _ & Ha & _).
    - split.
      + intros k' Hin. apply elem_of_list_fmap in Hin as (x & [= <-] & Hin). unfold ins in Hin. apply elem_of_list_fmap in Hin as (? & ? & _). done.
      + intros kv Hin. apply elem_of_zip_l in Hin. by apply elem_of_list_fmap in Hin as (? & ? & _).
    - rewrite <- Ha. do 2 f_equal. unfold Tr, rb_after. rewrite map_app. symmetry. apply history_app_2.
  Qed.
  Lemma fill_any check keys o :
    wpf (u_fill (rb_drain cmp) z check keys) (Tr o)
      (λ l t, t = Tr (o ++ ins keys) ∧ (∀ k, found (Ls o) k → found (Ls (o ++ ins keys)) k) ∧ Forall (found (Ls (o ++ ins keys))) keys ∧
         (distinct cmp keys → Forall (λ k, om_get cmp k (Ls o) = None) keys → lengthN (Ls (o ++ ins keys)) = lengthN (Ls o) + lengthN keys) ∧
         Forall2 (λ k a, rb_get_addr cmp t k = Val a) keys l)
      (λ e _, e = Panic ∧ ¬ fits keys (Ls o)).
  Proof using HO H0 Hw.
    revert o. induction keys as [|k keys IH]; intros o; cbn [u_fill].
    { unfold ins. cbn. rewrite app_nil_r. split_and!; [done|done|constructor| |constructor]. intros. unfold lengthN. cbn. lia. }
    destruct (Tr_insert o k) as (r & Hi & Hr). apply wpf_bind. eapply wp_intro; [exact Hi|]. destruct r as [a|].
    - destruct Hr as [Hl Hroom]. apply wpf_bind. eapply wp_lift; [done|]. apply wpf_bind.
      eapply (wp_mono _ _ (λ _ t, t = Tr (o ++ [MInsert k z]))); [destruct check; [by apply wp_valid|done]|]. intros [] t ->.
      assert (Forall (λ x, cmp k x ≠ Eq) keys → Forall (λ k, om_get cmp k (Ls o) = None) keys → Forall (λ x, om_get cmp x (Ls (o ++ [MInsert k z])) = None) keys) as Hfr.
      { intros Hne Hab. rewrite Hl. eapply Forall_impl; [exact (proj2 (Forall_and _ _) (conj Hne Hab))|]. intros x [Hx Hy].
        rewrite (om_get_insert cmp HO). by rewrite decide_False. }
      assert (om_get cmp k (Ls o) = None → lengthN (Ls (o ++ [MInsert k z])) = lengthN (Ls o) + 1) as Hln.
      { intros Hn. rewrite Hl. destruct (insert_new cmp HO k z (Ls o)) as [Hp _]; [by apply Ls_inv|by apply (om_get_absent cmp HO)|].
        apply Permutation_length in Hp. unfold lengthN. rewrite Hp. cbn. lia. }
      apply wpf_bind2. eapply wpf_mono; [apply (IH (o ++ [MInsert k z]))| |].
      + intros l t (-> & Hkeep & Hfo & Hlen & Had). cbv beta. rewrite <- app_assoc in *. cbn [app] in *. change (MInsert k z :: ins keys) with (ins (k :: keys)) in *.
        assert (∀ x, found (Ls o) x → found (Ls (o ++ [MInsert k z])) x) as Hk1.
        { intros x Hx. unfold found. rewrite Hl, (om_get_insert cmp HO). by destruct (decide _). }
        split_and!; [done|by intros; apply Hkeep, Hk1| | |].
        * constructor; [|done]. apply Hkeep. unfold found. rewrite Hl, (om_get_insert cmp HO), decide_True by (by apply cmp_refl). done.
        * intros [Hne Hd]%(distinct_cons cmp HO) [Hn Hab]%Forall_cons. rewrite Hlen by auto. rewrite Hln by done. rewrite lengthN_cons. lia.
        * constructor; [|done]. pose proof (ins_addr o k keys a _ Hi eq_refl) as Hia. rewrite <- app_assoc in Hia. exact Hia.
      + intros e t [-> Hnf]. split; [done|]. intros (Hd & Hab & Hlen). apply Hnf. apply (distinct_cons cmp HO) in Hd as [Hne Hd]. apply Forall_cons in Hab as [Hn Hab].
        split_and!; [done|by apply Hfr|]. rewrite Hln by done. rewrite lengthN_cons in Hlen. lia.
    - destruct Hr as [Hn Hfull]. unfold wpf. cbn. split; [done|]. intros (_ & _ & Hlen). rewrite lengthN_cons in Hlen. lia.
  Qed.
  Definition rems (keys : list K) : ops := map MRemove keys.
  Lemma drain_any keys o :
    wpf (u_drain (rb_drain cmp) keys) (Tr o)
      (λ _ t, t = Tr (o ++ rems keys) ∧ distinct cmp keys ∧ Forall (found (Ls o)) keys ∧ lengthN (Ls (o ++ rems keys)) + lengthN keys = lengthN (Ls o))
      (λ e _, e = Panic ∧ ¬ (distinct cmp keys ∧ Forall (found (Ls o)) keys)).
  Proof using HO H0 Hw.
    revert o. induction keys as [|k keys IH]; intros o; cbn [u_drain].
    { unfold rems. cbn. rewrite app_nil_r. split_and!; [done| |constructor|lia]. intros i j a b Ha. by rewrite lookup_nil in Ha. }
    destruct (Tr_remove o k) as [Hr Hl]. apply wpf_bind. eapply wp_intro; [exact Hr|]. destruct (om_get cmp k (Ls o)) as [v|] eqn:Eg.
    - apply wpf_bind. eapply wp_lift; [done|]. apply wpf_bind. apply wp_valid.
      assert (∀ x, found (Ls (o ++ [MRemove k])) x ↔ cmp k x ≠ Eq ∧ found (Ls o) x) as Hfx.
      { intros x. unfold found. rewrite Hl, (om_get_remove cmp HO) by apply Ls_inv. destruct (decide (cmp k x = Eq)); naive_solver. }
      assert (lengthN (Ls (o ++ [MRemove k])) + 1 = lengthN (Ls o)) as Hln.
      { rewrite Hl. destruct (asc_cases cmp HO k (Ls o)) as [(l1 & x & l2 & El & Hb & Hx & Hab)|(l1 & l2 & El & Hb & Hab)]; [apply Ls_inv| |].
        - rewrite El. rewrite (om_remove_found cmp k l1 x l2) by done. unfold lengthN. rewrite !app_length. cbn. lia.
        - exfalso. unfold om_get in Eg. rewrite El, (om_find_absent cmp k l1 l2) in Eg by done. done. }
      eapply wpf_mono; [apply (IH (o ++ [MRemove k]))| |]; cbv beta.
      + intros _ t (-> & Hd & Hf & Hlen). rewrite <- app_assoc in *. cbn [app] in *. change (MRemove k :: rems keys) with (rems (k :: keys)) in *.
        assert (Forall (λ x, cmp k x ≠ Eq ∧ found (Ls o) x) keys) as Hf'. { eapply Forall_impl; [exact Hf|]. intros x. apply Hfx. }
        apply Forall_and in Hf' as [Hf1 Hf2]. split_and!; [done|by apply (distinct_cons cmp HO)| |].
        * constructor; [|done]. unfold found. by rewrite Eg.
        * rewrite lengthN_cons. lia.
      + intros e t [-> Hnf]. split; [done|]. intros [Hd [_ Hf]%Forall_cons]. apply (distinct_cons cmp HO) in Hd as [Hne Hd]. apply Hnf. split; [done|].
        eapply Forall_impl; [exact (proj2 (Forall_and _ _) (conj Hne Hf))|]. intros x. apply Hfx.
    - unfold wpf. cbn. split; [done|]. intros [_ [Hf _]%Forall_cons]. unfold found in Hf. by rewrite Eg in Hf.
  Qed.

  Definition passes (keys : list K) : Prop := distinct cmp keys ∧ (length keys ≤ ms)%nat.
  Lemma passes_fits keys : passes keys ↔ fits keys (Ls []).
  Proof using Type.
    clear H0 Hw. unfold passes, fits. split.
    - intros [Hd Hl]. split_and!; [done|by apply Forall_true|]. unfold lengthN. cbn. lia.
    - intros (Hd & _ & Hl). split; [done|]. unfold lengthN in Hl. cbn in Hl. lia.
  Qed.
  (** from the fresh tree: filled, and then emptied *)
  Lemma filled_drained keys :
    Forall (found (Ls (ins keys))) keys → (distinct cmp keys → Forall (λ k, om_get cmp k (Ls []) = None) keys → lengthN (Ls (ins keys)) = lengthN (Ls []) + lengthN keys) →
    wpf (u_drain (rb_drain cmp) keys) (Tr (ins keys)) (λ _ t, passes keys ∧ rb_len t = 0) (λ e _, e = Panic ∧ ¬ passes keys).
  Proof using HO H0 Hw.
    intros Hf Hlen. eapply wpf_mono; [apply (drain_any keys (ins keys))| |]; cbv beta.
    - intros _ t (-> & Hd & _ & Hl). rewrite Tr_len. specialize (Hlen Hd ltac:(by apply Forall_true)). pose proof (proj2 (Ls_inv (ins keys))).
      rewrite Hlen in *. unfold lengthN in *. cbn in *. split; [split; [done|lia]|lia].
    - intros e t [-> Hn]. split; [done|]. intros [Hd _]. by apply Hn.
  Qed.
  Lemma test_delete_ok keys :
    wpf (test_delete (rb_drain cmp) z keys) (rb_new ms d) (λ _ t, passes keys ∧ rb_len t = 0) (λ e _, e = Panic ∧ ¬ passes keys).
  Proof using HO H0 Hw.
    rewrite Tr_new. unfold test_delete. apply wpf_bind2. eapply wpf_mono; [apply (fill_any true keys [])| |].
    - intros l t (-> & _ & Hf & Hlen & _). by apply filled_drained.
    - intros e t [-> Hn]. split; [done|]. by rewrite passes_fits.
  Qed.
  Lemma addrs_ok keys l t (Q : () → rbt K V → Prop) : Forall2 (λ k a, rb_get_addr cmp t k = Val a) keys l → Q () t → wp (u_addrs (rb_drain cmp) (zip keys l)) t Q.
  Proof using Type.
    clear H0 Hw. intros Hf HQ. induction Hf as [|k a keys l Hka Hf IH]; [done|]. cbn [zip zip_with u_addrs]. apply wp_bind.
    eapply wp_gets; [exact Hka|]. apply wp_bind, wp_massert; [by apply bool_decide_eq_true|done].
  Qed.
  Lemma test_delete_1024_ok keys :
    wpf (test_delete_1024 (rb_drain cmp) z keys) (rb_new ms d) (λ _ t, passes keys ∧ rb_len t = 0) (λ e _, e = Panic ∧ ¬ passes keys).
  Proof using HO H0 Hw.
    rewrite Tr_new. unfold test_delete_1024. apply wpf_bind2. eapply wpf_mono; [apply (fill_any true keys [])| |].
    - intros l t (-> & _ & Hf & Hlen & Had). cbv beta. apply wpf_bind. apply addrs_ok; [done|]. by apply filled_drained.
    - intros e t [-> Hn]. split; [done|]. by rewrite passes_fits.
  Qed.
  Lemma fill_start keys : wpf (u_fill (rb_drain cmp) z false keys) (rb_new ms d)
    (λ _ t, t = Tr (ins keys) ∧ Forall (found (Ls (ins keys))) keys ∧
      (distinct cmp keys → Forall (λ k, om_get cmp k (Ls []) = None) keys → lengthN (Ls (ins keys)) = lengthN (Ls []) + lengthN keys))
    (λ e _, e = Panic ∧ ¬ passes keys).
  Proof using HO H0 Hw.
    rewrite Tr_new. eapply wpf_mono; [apply (fill_any false keys [])| |]; cbv beta.
    - intros l t (-> & _ & Hf & Hlen & _). done.
    - intros e t [-> Hn]. split; [done|]. by rewrite passes_fits.
  Qed.
  Lemma fill_valid_drain keys :
    wpf (u_fill (rb_drain cmp) z false keys;; u_valid (rb_drain cmp);; u_drain (rb_drain cmp) keys) (rb_new ms d) (λ _ t, passes keys ∧ rb_len t = 0) (λ e _, e = Panic ∧ ¬ passes keys).
  Proof using HO H0 Hw.
    apply wpf_bind2. eapply wpf_mono; [apply fill_start| |done]. intros l t (-> & Hf & Hlen). cbv beta. apply wpf_bind, wp_valid. by apply filled_drained.
  Qed.
End delete.

Section delete_index.
  Context `{Profile} {K V : Type} (cmp : K → K → comparison) (HO : OrdLaws cmp) (ms : nat) (d : K * V) (d' : N * V) (z : V).
  Context (H0 : (0 < ms)%nat) (Hw : N.of_nat ms + 1 < W32).
  Lemma index_get keys i m k :
    (∃ j k', keys !! j = Some k' ∧ cmp k k' = Eq ∧ om_get cmp k (u_index cmp i keys m) = Some (i + N.of_nat j)) ∨
    (Forall (λ k', cmp k k' ≠ Eq) keys ∧ om_get cmp k (u_index cmp i keys m) = om_get cmp k m).
  Proof using HO.
    clear H0 Hw. revert i m. induction keys as [|k0 keys IH]; intros i m; [right; split; [constructor|done]|]. cbn [u_index].
    destruct (IH (i + 1) (om_insert cmp k0 i m)) as [(j & k' & Hj & He & Hg)|[Hne Hg]].
    - left. exists (S j), k'. split_and!; [done|done|]. rewrite Hg. f_equal. lia.
    - rewrite (om_get_insert cmp HO) in Hg. destruct (decide (cmp k0 k = Eq)) as [E|E].
      + left. exists 0%nat, k0. split_and!; [done|by apply (cmp_eq_sym cmp HO)|]. rewrite Hg. f_equal. lia.
      + right. split; [|done]. constructor; [|done]. intros E'. by apply (cmp_eq_sym cmp HO) in E'.
  Qed.
  Lemma indices_get m keys : Forall (λ k, om_get cmp k m ≠ None) keys →
    ∃ l, u_indices cmp m keys = Val l ∧ Forall2 (λ k i, om_get cmp k m = Some i) keys l.
  Proof using Type.
    induction 1 as [|k keys Hk Hf (l & Hl & Hf2)]; [exists []; split; [done|constructor]|]. cbn [u_indices].
    destruct (om_get cmp k m) as [i|] eqn:E; [|done]. exists (i :: l). rewrite Hl. split; [done|]. by constructor.
  Qed.
  Lemma indices_ok keys : ∃ l, u_indices cmp (u_index cmp 0 keys []) keys = Val l ∧ length l = length keys ∧ (distinct cmp keys ↔ distinct N.compare l).
  Proof using HO.
    clear H0 Hw. destruct (indices_get (u_index cmp 0 keys []) keys) as (l & Hl & Hf).
    { apply Forall_lookup. intros j k Hj. destruct (index_get keys 0 [] k) as [(j' & k' & _ & _ & ->)|[Hne _]]; [done|].
      exfalso. apply (proj1 (Forall_lookup _ _) Hne j k Hj). by apply cmp_refl. }
    exists l. split; [done|]. split; [symmetry; by eapply Forall2_length|].
    assert (∀ i j a b x y, keys !! i = Some a → keys !! j = Some b → l !! i = Some x → l !! j = Some y → cmp a b = Eq ↔ x = y) as Hiff.
    { intros i j a b x y Ha Hb Hx Hy. pose proof (Forall2_lookup_lr _ _ _ _ _ _ Hf Ha Hx) as Hga. pose proof (Forall2_lookup_lr _ _ _ _ _ _ Hf Hb Hy) as Hgb. cbv beta in Hga, Hgb.
      destruct (index_get keys 0 [] a) as [(i' & a' & Hi' & Ea & Ga)|[_ Ga]]; [|by rewrite Ga in Hga].
      destruct (index_get keys 0 [] b) as [(j' & b' & Hj' & Eb & Gb)|[_ Gb]]; [|by rewrite Gb in Hgb].
      split.
      - intros E. assert (om_get cmp a (u_index cmp 0 keys []) = om_get cmp b (u_index cmp 0 keys [])) as Hab.
        { unfold om_get. f_equal. clear -HO E. induction (u_index cmp 0 keys []) as [|p m IHm]; [done|]. cbn [om_find]. by rewrite (cmp_eq _ HO a b p.1 E), IHm. }
        congruence.
      - intros ->. assert (i' = j') as -> by (rewrite Ga in Hga; rewrite Gb in Hgb; injection Hga; injection Hgb; lia).
        assert (a' = b') as -> by congruence. rewrite (cmp_eq _ HO a b' b Ea). by apply (cmp_eq_sym cmp HO). }
    split.
    - intros Hd i j x y Hx Hy E. destruct (Forall2_lookup_r _ _ _ _ _ Hf Hx) as (a & Ha & _). destruct (Forall2_lookup_r _ _ _ _ _ Hf Hy) as (b & Hb & _).
      apply (Hd i j a b Ha Hb). apply (Hiff i j a b x y); try done. by apply N.compare_eq_iff.
    - intros Hd i j a b Ha Hb E. destruct (Forall2_lookup_l _ _ _ _ _ Hf Ha) as (x & Hx & _). destruct (Forall2_lookup_l _ _ _ _ _ Hf Hb) as (y & Hy & _).
      apply (Hd i j x y Hx Hy). apply N.compare_eq_iff. by apply (Hiff i j a b x y).
  Qed.
  Lemma test_delete_2048_ok keys :
    wpf (test_delete_2048 (rb_drain cmp) (rb_drain N.compare) cmp z keys) (rb_new ms d, rb_new ms d') (λ _ t, passes cmp ms keys ∧ rb_len t.2 = 0) (λ e _, e = Panic ∧ ¬ passes cmp ms keys).
  Proof using HO H0 Hw.
    unfold test_delete_2048. apply wpf_bind2.
    pose proof (fill_start cmp HO ms d z H0 Hw keys) as Hfill. unfold wpf, zoom in Hfill |- *. cbn [fst snd]. destruct (u_fill (rb_drain cmp) z false keys (rb_new ms d)) as [l t|e t]; [|done].
    destruct (indices_ok keys) as (is & Hi & Hlen & Hd). unfold mbind, M_bind, lift, gets. rewrite Hi. cbn [fst snd].
    pose proof (fill_valid_drain N.compare N_laws ms d' z H0 Hw is) as Hrest. unfold wpf, mbind, M_bind in Hrest.
    destruct (u_fill (rb_drain N.compare) z false is (rb_new ms d')) as [l2 t2|e t2].
    - destruct (u_valid (rb_drain N.compare) t2) as [[] t3|e t3].
      + destruct (u_drain (rb_drain N.compare) is t3) as [[] t4|e t4]; unfold passes in *; rewrite Hd, <- Hlen; exact Hrest.
      + unfold passes in *. rewrite Hd, <- Hlen. exact Hrest.
    - unfold passes in *. rewrite Hd, <- Hlen. exact Hrest.
  Qed.
End delete_index.
