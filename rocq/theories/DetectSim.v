(** * What the randomised test can tell apart: proofs for C76 *)
From Verif Require Import IterProof FuzzProof TestModel DetectSpec TestProof.

Section counter.
  Context `{Profile} {K V : Type} `{EqDecision V} (cmp : K → K → comparison) (R : rng K V) (ms : nat) (v0 : V).
  Notation api := (counter (K:=K) (N.of_nat ms) v0).
  Notation cnt n st := (m_tree st = n ∧ m_s st = n ∧ lengthN (m_keys st) = n).
  Notation inv st := (m_s st = m_tree st ∧ lengthN (m_keys st) = m_tree st ∧ m_tree st ≤ N.of_nat ms).
  Implicit Types st : sim N K V.
  Lemma c_fill st : inv st → m_tree st < N.of_nat ms → wp (t_fill api cmp R) st (λ _ st', inv st' ∧ m_tree st' = m_tree st + 1).
  Proof.
    intros (Hs & Hk & Hc) Hl. unfold t_fill. apply wp_bind, wp_draw, wp_bind, wp_draw, wp_bind, wp_zoom.
    cbn [n_insert counter m_tree set_draws]. eapply wp_intro; [by rewrite decide_True|]. apply wp_bind, wp_massert; [done|].
    apply wp_bind, wp_modify, wp_bind, wp_mget, wp_bind, wp_massert; [cbn; apply bool_decide_eq_true; lia|].
    apply wp_bind, wp_modify, wp_modify. cbn. unfold lengthN in *. rewrite app_length. cbn. lia.
  Qed.
  Lemma c_insert st : inv st → m_tree st < N.of_nat ms → wp (t_insert api cmp R) st (λ _ st', inv st' ∧ m_tree st' = m_tree st + 1).
  Proof.
    intros (Hs & Hk & Hc) Hl. unfold t_insert. apply wp_bind, wp_mget, wp_bind, wp_massert; [by apply bool_decide_eq_true|].
    apply wp_bind, wp_draw, wp_bind, wp_draw, wp_bind, wp_zoom.
    cbn [n_insert counter m_tree set_draws]. eapply wp_intro; [by rewrite decide_True|]. apply wp_bind, wp_massert; [done|].
    apply wp_bind, wp_modify, wp_bind, wp_modify, wp_modify. cbn. unfold lengthN in *. rewrite app_length. cbn. lia.
  Qed.
  Lemma c_empty ks st : m_s st = m_tree st → lengthN ks = m_tree st → wp (t_empty api cmp ks) st (λ _ st', m_s st' = m_tree st' ∧ m_tree st' = 0).
  Proof.
    revert st. induction ks as [|k ks IH]; intros st Hs Hk; cbn [t_empty]; [by apply wp_ret|].
    assert (m_tree st ≠ 0) as H0 by (rewrite <- Hk; unfold lengthN; cbn; lia).
    apply wp_bind, wp_zoom. cbn [n_remove counter]. eapply wp_intro; [by rewrite decide_False|]. apply wp_bind, wp_massert; [done|].
    apply wp_bind, wp_mget, wp_bind. eapply wp_lift; [apply u_sub_ok; cbn; lia|]. apply wp_bind, wp_modify, wp_bind, wp_modify.
    apply IH; cbn; unfold lengthN in *; cbn in *; lia.
  Qed.
  Lemma c_pick st (Q : nat * K → sim N K V → Prop) : inv st → 0 < m_tree st →
    (∀ j k, m_keys st !! j = Some k → Q (j, k) (set_draws (m_draws st + 1) st)) → wp (t_pick R) st Q.
  Proof.
    intros (Hs & Hk & Hc) Hl HQ. unfold t_pick. apply wp_bind, wp_mget, wp_bind, wp_massert.
    { apply bool_decide_eq_true. intros He. rewrite He in Hk. unfold lengthN in *. cbn in *. lia. }
    apply wp_bind, wp_range; [lia|]. intros r _ Hr.
    assert (N.to_nat r < length (m_keys st))%nat as Hlt by (unfold lengthN in *; lia). apply lookup_lt_is_Some in Hlt as [k Hj].
    apply wp_bind. eapply wp_lift; [by rewrite Hj|]. apply wp_ret. by apply HQ.
  Qed.
  Lemma c_remove st : inv st → 0 < m_tree st → wp (t_remove api cmp R) st (λ _ st', inv st' ∧ m_tree st' = m_tree st - 1).
  Proof.
    intros Hi Hl. pose proof Hi as (Hs & Hk & Hc). unfold t_remove. apply wp_bind, c_pick; [done..|]. intros j k Hj. cbn [fst snd].
    apply wp_bind, wp_modify, wp_bind, wp_zoom. cbn [n_remove counter m_tree set_keys set_draws]. eapply wp_intro; [by rewrite decide_False by lia|].
    apply wp_bind, wp_massert; [done|]. apply wp_bind, wp_modify, wp_bind, wp_mget, wp_bind. eapply wp_lift; [apply u_sub_ok; cbn; lia|]. apply wp_modify.
    pose proof (Permutation_length (swap_remove_perm _ _ _ Hj)) as Hp. cbn in *. unfold lengthN in *. lia.
  Qed.
  Lemma c_update st : inv st → 0 < m_tree st → wp (t_update api cmp R) st (λ _ st', inv st' ∧ m_tree st' = m_tree st).
  Proof.
    intros Hi Hl. pose proof Hi as (Hs & Hk & Hc). unfold t_update. apply wp_bind, c_pick; [done..|]. intros j k Hj. cbn [fst snd].
    apply wp_bind, wp_draw, wp_bind, wp_zoom. cbn [n_get_mut counter]. eapply wp_intro; [done|]. apply wp_bind. eapply wp_lift; [done|]. by apply wp_modify.
  Qed.
  Lemma c_round st : inv st → wp (t_round api cmp R) st (λ _ st', inv st').
  Proof.
    intros Hi. pose proof Hi as (Hs & Hk & Hc). unfold t_round. apply wp_bind, wp_mget, wp_bind, wp_massert; [by apply bool_decide_eq_true|].
    apply wp_bind, wp_draw. cbn [n_len n_capacity counter].
    destruct (r_third R (m_draws st)).
    - apply wp_bind. eapply wp_lift; [apply u_sub_ok; lia|]. destruct (decide _) as [E|E]; [by apply wp_ret|].
      apply wp_bind, wp_range; [lia|]. intros r _ Hr.
      eapply wp_mono; [apply (wp_times _ _ (λ n st', inv st' ∧ m_tree st' + N.of_nat n < N.of_nat ms))|cbv beta; tauto].
      + intros m st' (Hi' & Hl'). eapply wp_mono; [apply c_insert; [done|lia]|]. cbv beta. intros _ st'' (? & ?). split; [done|lia].
      + split; [done|]. cbn [m_tree set_draws]. lia.
    - destruct (decide _) as [E|E]; [by apply wp_ret|]. apply wp_bind, wp_range; [apply N.div_str_pos; lia|]. intros r _ Hr.
      pose proof (N.div_le_upper_bound (m_tree st) 2 (m_tree st) ltac:(lia) ltac:(lia)) as Hdiv.
      eapply wp_mono; [apply (wp_times _ _ (λ n st', inv st' ∧ N.of_nat n ≤ m_tree st'))|cbv beta; tauto].
      + intros m st' (Hi' & Hl'). eapply wp_mono; [apply c_remove; [done|lia]|]. cbv beta. intros _ st'' (? & ?). split; [done|lia].
      + split; [done|]. cbn [m_tree set_draws]. lia.
    - destruct (decide _) as [E|E]; [by apply wp_ret|]. apply wp_bind, wp_range; [lia|]. intros r _ Hr.
      eapply wp_mono; [apply (wp_times _ _ (λ n st', inv st' ∧ 0 < m_tree st'))|cbv beta; tauto].
      + intros m st' (Hi' & Hl'). eapply wp_mono; [apply c_update; [done|lia]|]. cbv beta. intros _ st'' (? & ?). split; [done|lia].
      + split; [done|]. cbn [m_tree set_draws]. lia.
  Qed.
  Lemma c_until {A} n : (0 < n)%nat → until_none (replicate n (@None A)) = Val [].
  Proof. destruct n; [lia|done]. Qed.
  Lemma c_same st m : wp (t_same api cmp false m) st (λ _ st', st' = st).
  Proof.
    unfold t_same. apply wp_bind, wp_mget, wp_bind. eapply wp_lift; [done|]. apply wp_bind. eapply wp_lift; [rewrite c_until; [done|]; rewrite replicate_length; unfold fz_calls; lia|].
    apply wp_massert; [|done]. by destruct m.
  Qed.
  Lemma c_rewrite e st : wp (t_rewrite api cmp R e) st (λ m st', m = [] ∧ m_tree st' = m_tree st).
  Proof.
    unfold t_rewrite. apply wp_bind, wp_mget, wp_bind, wp_zoom. cbn [n_iter_mut counter]. eapply wp_intro; [done|].
    apply wp_bind. eapply wp_lift; [rewrite c_until; [done|]; rewrite map_length, new_values_len; unfold fz_calls; lia|]. apply wp_bind, wp_modify, wp_ret. done.
  Qed.
  Lemma counter_passes : (∀ n l, length (r_shuffle R n l) = length l) → ∃ st, simulate api cmp R ms false (sim_start 0) = Ret () st.
  Proof.
    intros Hsh. enough (wp (simulate api cmp R ms false) (sim_start 0) (λ _ _, True)) as (a & st & E & _)%wp_elim by (destruct a; eauto).
    unfold simulate. apply wp_bind. eapply wp_mono.
    { apply (wp_times _ _ (λ n st', inv st' ∧ m_tree st' + N.of_nat n = N.of_nat ms)).
      - intros m st' (Hi' & Hl'). eapply wp_mono; [apply c_fill; [done|lia]|]. cbv beta. intros _ st'' (? & ?). split; [done|lia].
      - cbn. unfold lengthN. cbn. lia. }
    intros _ st ((Hs & Hk & Hc) & Hl). cbv beta. apply wp_bind, wp_draw, wp_bind, wp_draw, wp_bind, wp_zoom. cbn [n_insert counter m_tree set_draws].
    eapply wp_intro; [by rewrite decide_False by lia|]. apply wp_bind, wp_massert; [done|]. apply wp_bind, wp_draw, wp_bind, wp_mget, wp_bind.
    cbn [m_keys m_draws set_draws set_tree]. eapply wp_mono; [apply c_empty; cbn; [done|unfold lengthN in *; by rewrite Hsh]|]. cbv beta. intros _ st' [Hs' Ht'].
    apply wp_bind, wp_mget, wp_bind, wp_massert; [by apply bool_decide_eq_true|]. apply wp_bind, wp_modify, wp_bind.
    eapply wp_mono; [apply (wp_times _ _ (λ _ st', inv st'))|].
    { intros _ st1 H1. by apply c_round. }
    { cbn. rewrite Hs', Ht'. unfold lengthN. cbn. lia. }
    intros _ st1 _. cbv beta. apply wp_bind, wp_mget, wp_bind. eapply wp_mono; [apply c_same|]. intros _ ? ->. cbv beta.
    apply wp_bind. eapply wp_mono; [apply c_rewrite|]. intros m st2 _. cbv beta. apply wp_bind. eapply wp_mono; [apply c_same|]. intros _ ? ->. cbv beta.
    apply wp_bind, wp_ret, wp_bind. eapply wp_mono; [apply c_rewrite|]. intros m' st3 _. cbv beta. eapply wp_mono; [apply c_same|]. done.
  Qed.
End counter.

(** ** What the assertions of the ordered maps say *)
Section sorted.
  Context `{Profile} {S K V : Type} `{EqDecision V} (api : nam S K V) (cmp : K → K → comparison) (R : rng K V).
  Implicit Types (st : sim S K V) (m : list (K * V)).
  Lemma same_iff (x y : K * V) : same_pair cmp x y = true ↔ cmp x.1 y.1 = Eq ∧ x.2 = y.2.
  Proof. unfold same_pair. by rewrite andb_true_iff, !bool_decide_eq_true. Qed.
  Lemma zip_iff m l : zip_same cmp m l = true ↔ agree cmp m l.
  Proof.
    revert l. induction m as [|x m IH]; intros l; cbn [zip_same].
    { split; [|done]. intros _ i x y Hx. by rewrite lookup_nil in Hx. }
    destruct l as [|[y|] l].
    - split; [|done]. intros _ i x' y _ Hy. by rewrite lookup_nil in Hy.
    - rewrite andb_true_iff, same_iff, IH. split.
      + intros [Hs Ha] [|i] x' y' Hx Hy Hj; [cbn in *; by injection Hx as <-; injection Hy as <-|]. cbn in Hx, Hy. apply (Ha i); [done..|].
        intros j Hlt. apply (Hj (Datatypes.S j)). lia.
      + intros Ha. split; [apply (Ha O); [done..|lia]|]. intros i x' y' Hx Hy Hj. apply (Ha (Datatypes.S i)); [done..|]. intros [|j] Hlt; [by exists y|]. apply (Hj j). lia.
    - split; [|done]. intros _ [|i] x' y' Hx Hy Hj; [done|]. destruct (Hj O) as [z Hz]; [lia|]. done.
  Qed.
  Ltac go := repeat first
    [ progress unfold mbind, M_bind, mget, gets, lift, modify, mret, M_ret, massert in *
    | progress cbn [fst snd] in * ].
  Lemma t_same_iff st m st' : t_same api cmp true m st = Ret () st' ↔
    st' = st ∧ ∃ l l', n_iter api (m_tree st) (replicate (length m) Fwd) = Val l ∧ agree cmp m l ∧
      n_iter api (m_tree st) (replicate (length m) Bwd) = Val l' ∧ agree cmp (rev m) l'.
  Proof.
    unfold t_same. go. destruct (n_iter api (m_tree st) (replicate (length m) Fwd)) as [l|e]; go; [|split; [done|by intros (_ & ? & ? & [=] & _)]].
    destruct (zip_same cmp m l) eqn:E; go.
    - apply zip_iff in E. destruct (n_iter api (m_tree st) (replicate (length m) Bwd)) as [l'|e]; go; [|split; [done|by intros (_ & ? & ? & _ & _ & [=] & _)]].
      destruct (zip_same cmp (rev m) l') eqn:E'; go.
      + apply zip_iff in E'. split; [intros [= <-]; split; [done|]; by exists l, l'|]. by intros [-> _].
      + split; [done|]. intros (_ & ? & ? & _ & _ & [= <-] & Ha). apply zip_iff in Ha. congruence.
    - split; [done|]. intros (_ & ? & ? & [= <-] & Ha & _). apply zip_iff in Ha. congruence.
  Qed.
  Lemma none_iff {A} (l : list (option A)) : all_none l = true ↔ Forall (λ o, o = None) l.
  Proof.
    unfold all_none. rewrite forallb_forall, Forall_forall. split; intros Hl x Hx.
    - specialize (Hl x ltac:(by apply elem_of_list_In)). by destruct x.
    - apply elem_of_list_In in Hx. by rewrite (Hl x Hx).
  Qed.
  Lemma some_iff {A} (l : list (option A)) : forallb is_some l = true ↔ Forall is_Some l.
  Proof.
    rewrite forallb_forall, Forall_forall. split; intros Hl x Hx.
    - specialize (Hl x ltac:(by apply elem_of_list_In)). destruct x; [by eexists|done].
    - apply elem_of_list_In in Hx. by destruct (Hl x Hx) as [y ->].
  Qed.
  Lemma t_consumed_iff st st' : let n := N.to_nat (n_len api (m_tree st)) in
    let exactly l := Forall is_Some (take n l) ∧ Forall (λ o, o = None) (drop n l) in
    t_consumed api st = Ret () st' ↔
    st' = st ∧ ∃ l l', n_iter api (m_tree st) (replicate n Fwd ++ [Fwd; Bwd; Fwd; Bwd]) = Val l ∧ exactly l ∧
      n_iter api (m_tree st) (replicate n Bwd ++ [Bwd; Fwd; Bwd; Fwd]) = Val l' ∧ exactly l'.
  Proof.
    intros n exactly. assert (∀ l : list (option (K * V)), forallb is_some (take n l) && all_none (drop n l) = true ↔ exactly l) as He.
    { intros l. unfold exactly. by rewrite andb_true_iff, some_iff, none_iff. }
    unfold t_consumed. go. fold n. destruct (n_iter api (m_tree st) (replicate n Fwd ++ _)) as [l|e]; go; [|split; [done|by intros (_ & ? & ? & [=] & _)]].
    destruct (forallb is_some (take n l) && all_none (drop n l)) eqn:E; go.
    - apply He in E. destruct (n_iter api (m_tree st) (replicate n Bwd ++ _)) as [l'|e]; go; [|split; [done|by intros (_ & ? & ? & _ & _ & [=] & _)]].
      destruct (forallb is_some (take n l') && all_none (drop n l')) eqn:E'; go.
      + apply He in E'. split; [intros [= <-]; split; [done|]; by exists l, l'|]. by intros [-> _].
      + split; [done|]. intros (_ & ? & ? & _ & _ & [= <-] & Ha). apply He in Ha. congruence.
    - split; [done|]. intros (_ & ? & ? & [= <-] & Ha & _). apply He in Ha. congruence.
  Qed.
  Lemma all_same_iff (l l' : list (option (K * V))) : all_same cmp l l' = true ↔
    Forall2 (λ a b, ∃ x y, a = Some x ∧ b = Some y ∧ cmp x.1 y.1 = Eq ∧ x.2 = y.2) l l'.
  Proof.
    revert l'. induction l as [|[x|] l IH]; intros [|[y|] l']; cbn [all_same]; try (split; [done|]; intros Hf; inversion Hf; naive_solver).
    - rewrite andb_true_iff, same_iff, IH. split; [intros [? ?]; constructor; [|done]; by exists x, y|].
      intros Hf. apply Forall2_cons in Hf as [(x' & y' & [= <-] & [= <-] & ?) ?]. done.
  Qed.
  Lemma de_same_iff b m l : (b ≤ length m)%nat → de_same cmp b (length m) l (de_spec (de_script b (length m)) m) = true ↔
    Forall2 (λ a x, ∃ y, a = Some y ∧ cmp y.1 x.1 = Eq ∧ y.2 = x.2) (take (length m) l) (take b m ++ rev (drop b m)) ∧ Forall (λ o, o = None) (drop (length m) l).
  Proof.
    intros Hb. unfold de_same. replace (b + (length m - b))%nat with (length m) by lia.
    assert (de_spec (de_script b (length m)) m = map Some (take b m ++ rev (drop b m)) ++ [None; None; None; None]) as -> by (unfold de_script; by rewrite de_split).
    assert (length (map Some (take b m ++ rev (drop b m))) = length m) as Hlen by (rewrite map_length, app_length, rev_length, take_length, drop_length; lia).
    rewrite take_app_alt, drop_app_alt by done. rewrite !andb_true_iff, !none_iff, all_same_iff, Forall2_fmap_r. split.
    - intros [[Hf Hn] _]. split; [|done]. eapply Forall2_impl; [exact Hf|]. cbv beta. intros a x (y & x' & -> & [= <-] & Hxy). eauto.
    - intros [Hf Hn]. split; [split; [|done]|by repeat constructor]. eapply Forall2_impl; [exact Hf|]. cbv beta. intros a x (y & -> & Hxy). cbn. by exists y, x.
  Qed.
  (** The draw: with fewer than three entries there is nothing to choose from. (For the empty map and wrapping arithmetic there is, but then the first answer is missed.) *)
  Definition de_b (st : sim S K V) m : nat := N.to_nat (1 + r_num R (m_draws st) mod (lengthN m - 2)).
  Lemma de_b_le st m : (2 < length m)%nat → (1 ≤ de_b st m)%nat ∧ (de_b st m + 1 < length m)%nat.
  Proof.
    intros Hm. unfold de_b. pose proof (N.mod_lt (r_num R (m_draws st)) (lengthN m - 2) ltac:(unfold lengthN; lia)) as Hl. revert Hl.
    generalize (r_num R (m_draws st) mod (lengthN m - 2)). unfold lengthN. lia.
  Qed.
  Lemma empty_not_same b (l : list (option (K * V))) : (1 ≤ b)%nat → de_same cmp b 0 l (de_spec (de_script b 0) []) = false.
  Proof.
    intros Hb. destruct b as [|b]; [lia|]. unfold de_same, de_script. cbn. by destruct l as [|[]].
  Qed.
  Lemma t_double_ended_iff st m st' : t_double_ended api cmp R m st = Ret () st' ↔
    (2 < length m)%nat ∧ st' = set_draws (m_draws st + 1) st ∧ let b := N.to_nat (1 + r_num R (m_draws st) mod (lengthN m - 2)) in
    ∃ l, n_iter api (m_tree st) (replicate b Fwd ++ replicate (length m - b) Bwd ++ [Fwd; Bwd; Fwd; Bwd]) = Val l ∧
      Forall2 (λ a x, ∃ y, a = Some y ∧ cmp y.1 x.1 = Eq ∧ y.2 = x.2) (take (length m) l) (take b m ++ rev (drop b m)) ∧
      Forall (λ o, o = None) (drop (length m) l).
  Proof.
    cbv zeta. fold (de_b st m). pose proof (de_b_le st m) as Hb. unfold t_double_ended. go. unfold u64_sub, u_sub.
    destruct (decide (1 ≤ lengthN m)) as [H1|H1].
    - unfold gen_range, draw. go. replace (lengthN m - 1 - 1) with (lengthN m - 2) by lia. destruct (decide (1 < lengthN m - 1)) as [H2|H2].
      + assert (2 < length m)%nat as Hm by (unfold lengthN in *; lia). destruct (Hb Hm) as [Hb1 Hb2]. go. cbn [m_tree set_draws]. fold (de_b st m).
        change (replicate (de_b st m) Fwd ++ replicate (length m - de_b st m) Bwd ++ [Fwd; Bwd; Fwd; Bwd]) with (de_script (de_b st m) (length m)).
        destruct (n_iter api (m_tree st) (de_script (de_b st m) (length m))) as [l|e]; go; [|split; [done|by intros (_ & _ & ? & [=] & _)]].
        pose proof (de_same_iff (de_b st m) m l ltac:(lia)) as Hs. destruct (de_same _ _ _ _ _); go.
        * split; [intros [= <-]; split_and!; [done|done|exists l; split; [done|by apply Hs]]|]. by intros (_ & -> & _).
        * split; [done|]. intros (_ & _ & l' & [= <-] & Hx). apply Hs in Hx. done.
      + split; [done|]. intros (Hm & _). unfold lengthN in *. lia.
    - assert (m = []) as -> by (destruct m; [done|unfold lengthN in H1; cbn in H1; lia]). split; [|intros (Hm & _); cbn in Hm; lia].
      destruct overflow_checks; go; [done|]. unfold gen_range, draw. go. destruct (decide (1 < _)) as [Hlt|]; [|done]. go.
      destruct (n_iter api _ _) as [lx|e]; [|done]. go. rewrite empty_not_same; [done|]. generalize (r_num R (m_draws st) mod ((lengthN (@nil (K * V)) + W64 - 1) mod W64 - 1)). lia.
  Qed.
  (** What is written: the values drawn next, one for each call *)
  Lemma t_double_ended_mut_iff st m st' : t_double_ended_mut api cmp R m st = Ret () st' ↔
    (2 < length m)%nat ∧ let b := N.to_nat (1 + r_num R (m_draws st) mod (lengthN m - 2)) in
    ∃ l t, n_iter_mut api (zip (replicate b Fwd ++ replicate (length m - b) Bwd ++ [Fwd; Bwd; Fwd; Bwd])
        ((λ i _, r_val R (m_draws st + 1 + N.of_nat i)) <$> seq 0 (length m + 4))) (m_tree st) = Ret l t ∧
      st' = set_draws (m_draws st + 1 + lengthN m) (set_tree t st) ∧
      Forall2 (λ a x, ∃ y, a = Some y ∧ cmp y.1 x.1 = Eq ∧ y.2 = x.2) (take (length m) (no_index l)) (take b m ++ rev (drop b m)) ∧
      Forall (λ o, o = None) (drop (length m) (no_index l)).
  Proof.
    cbv zeta. fold (de_b st m). pose proof (de_b_le st m) as Hb. unfold t_double_ended_mut. go. unfold u64_sub, u_sub.
    destruct (decide (1 ≤ lengthN m)) as [H1|H1].
    - unfold gen_range, draw. go. replace (lengthN m - 1 - 1) with (lengthN m - 2) by lia. destruct (decide (1 < lengthN m - 1)) as [H2|H2].
      + assert (2 < length m)%nat as Hm by (unfold lengthN in *; lia). destruct (Hb Hm) as [Hb1 Hb2]. go. unfold on, zoom. cbn [m_tree m_draws set_draws]. fold (de_b st m).
        replace (de_b st m + (length m - de_b st m) + 4)%nat with (length m + 4)%nat by lia.
        change (replicate (de_b st m) Fwd ++ replicate (length m - de_b st m) Bwd ++ [Fwd; Bwd; Fwd; Bwd]) with (de_script (de_b st m) (length m)).
        change ((λ (i : nat) (_ : V), r_val R (m_draws st + 1 + N.of_nat i)) <$> seq 0 (length m + 4)) with (new_values R (m_draws st + 1) (length m + 4)).
        set (sc := zip _ _). assert (sc.*1 = de_script (de_b st m) (length m)) as Hsc.
        { apply fst_zip. unfold new_values. rewrite map_length, seq_length. unfold de_script. rewrite !app_length, !replicate_length. cbn. lia. }
        destruct (n_iter_mut api sc (m_tree st)) as [l t|e t]; go; [|split; [done|by intros (_ & ? & ? & [=] & _)]]. rewrite de_mut_spec_out, Hsc.
        pose proof (de_same_iff (de_b st m) m (no_index l) ltac:(lia)) as Hs. destruct (de_same _ _ _ _ _); go.
        * split; [intros [= <-]; split; [done|]; exists l, t; split_and!; [done|done|by apply Hs..]|]. by intros (_ & l' & t' & [= <- <-] & -> & _).
        * split; [done|]. intros (_ & l' & t' & [= <- <-] & _ & Hx). apply Hs in Hx. done.
      + split; [done|]. intros (Hm & _). unfold lengthN in *. lia.
    - assert (m = []) as -> by (destruct m; [done|unfold lengthN in H1; cbn in H1; lia]). split; [|intros (Hm & _); cbn in Hm; lia].
      destruct overflow_checks; go; [done|]. unfold gen_range, draw. go. destruct (decide (1 < _)) as [Hlt|]; [|done]. go. unfold on, zoom.
      destruct (n_iter_mut api _ _) as [l t|e t]; [|done]. go. rewrite de_mut_spec_out, fst_zip.
      + cbn [length]. rewrite empty_not_same; [done|]. generalize (r_num R (m_draws st) mod ((lengthN (@nil (K * V)) + W64 - 1) mod W64 - 1)). lia.
      + unfold new_values. rewrite map_length, seq_length. unfold de_script. rewrite !app_length, !replicate_length. cbn. lia.
  Qed.
End sorted.
