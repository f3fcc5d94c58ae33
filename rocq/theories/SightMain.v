(** * The contents and sequence numbers a deque can have *)
From Verif Require Import IterProof DequeApi DequeProof SightSpec.

Lemma de_inj {A} (l l' : list A) : (∀ script, de_spec script l = de_spec script l') → l = l'.
Proof.
  revert l'. induction l as [|x l IH]; intros [|y l'] He; try done.
  - specialize (He [Fwd]). done.
  - specialize (He [Fwd]). done.
  - pose proof (He [Fwd]) as H1. cbn in H1. injection H1 as ->. f_equal. apply IH. intros s. specialize (He (Fwd :: s)). cbn in He. by injection He.
Qed.
Lemma spec_app {S O A} (step : O → S → A * S) o1 o2 s : (spec_history step (o1 ++ o2) s).2 = (spec_history step o2 (spec_history step o1 s).2).2.
Proof.
  revert s. induction o1 as [|o o1 IH]; intros s; cbn [app spec_history]; [done|]. destruct (step o s) as [r s1]. specialize (IH s1).
  destruct (spec_history step (o1 ++ o2) s1), (spec_history step o1 s1). done.
Qed.

Section spec.
  Context {T : Type} (ms : nat).
  Notation cap := (N.of_nat ms).
  Notation state ops := (spec_history (dq_spec (T := T) cap) ops ([], 0)).2.
  (** what holds of every state *)
  Definition ok (s : list T * N) : Prop :=
    (length s.1 ≤ ms)%nat ∧ N.even s.2 = Nat.even (length s.1) ∧ N.of_nat (length s.1) ≤ s.2 ∧ (ms = 0%nat → s.2 = 0).
  Lemma even_S n : N.even (n + 1) = negb (N.even n).
  Proof. rewrite N.add_1_r, N.even_succ, <- N.negb_even. done. Qed.
  Lemma neven_S n : Nat.even (S n) = negb (Nat.even n).
  Proof. rewrite Nat.even_succ, <- Nat.negb_even. done. Qed.
  Lemma step_ok o s : ok s → ok (dq_spec cap o s).2.
  Proof.
    destruct s as [l n]. intros (H1 & H2 & H3 & H4). cbn [fst snd] in *. destruct o as [v|v| | | | | | |sc|sc]; cbn [dq_spec]; try done.
    - destruct (decide (lengthN l < cap)) as [Hd|]; [|done]. unfold lengthN in Hd. unfold ok. cbn [fst snd length]. rewrite even_S, neven_S, H2. split_and!; [lia|done|lia|lia].
    - destruct (decide (lengthN l < cap)) as [Hd|]; [|done]. unfold lengthN in Hd. unfold ok. cbn [fst snd]. rewrite app_length. cbn [length].
      rewrite Nat.add_1_r, even_S, neven_S, H2. split_and!; [lia|done|lia|lia].
    - destruct l as [|x l]; [done|]. unfold ok. cbn [fst snd length] in *. rewrite even_S, H2, neven_S, negb_involutive. split_and!; [lia|done|lia|lia].
    - destruct (unsnoc l) as [[l' x]|] eqn:E; [|done]. apply unsnoc_Some in E as ->. rewrite app_length in *. cbn [length] in *. rewrite Nat.add_1_r in *.
      unfold ok. cbn [fst snd] in *. rewrite even_S, H2, neven_S, negb_involutive. split_and!; [lia|done|lia|lia].
    - pose proof (de_mut_spec_keys (λ (f : T → T) x, f x) (λ _, ()) sc l ltac:(done)) as Hk. destruct (de_mut_spec (λ f x, f x) sc l) as [out l'].
      apply (f_equal length) in Hk. rewrite !map_length in Hk. unfold ok. cbn [fst snd] in *. rewrite Hk. done.
  Qed.
  Lemma history_ok ops s : ok s → ok (spec_history (dq_spec cap) ops s).2.
  Proof.
    revert s. induction ops as [|o ops IH]; intros s Hs; [done|]. cbn [spec_history]. pose proof (step_ok o s Hs) as H1. destruct (dq_spec cap o s) as [r s1].
    specialize (IH s1 H1). destruct (spec_history (dq_spec cap) ops s1). done.
  Qed.
  Lemma new_ok : ok ([], 0).
  Proof. split_and!; cbn; (done || lia). Qed.
  Lemma few_mutations ops s : (spec_history (dq_spec (T := T) cap) ops s).2.2 ≤ s.2 + lengthN ops.
  Proof.
    revert s. induction ops as [|o ops IH]; intros [l n]; [cbn; lia|]. cbn [spec_history]. assert ((dq_spec cap o (l, n)).2.2 ≤ n + 1) as H1.
    { destruct o as [v|v| | | | | | |sc|sc]; cbn [dq_spec]; try (cbn; lia).
      - destruct (decide _); cbn; lia.
      - destruct (decide _); cbn; lia.
      - destruct l; cbn; lia.
      - destruct (unsnoc l) as [[? ?]|]; cbn; lia.
      - destruct (de_mut_spec _ sc l); cbn; lia. }
    destruct (dq_spec cap o (l, n)) as [r s1]. specialize (IH s1). destruct (spec_history (dq_spec cap) ops s1). cbn [snd] in *. unfold lengthN in *. cbn [length]. lia.
  Qed.
  (** putting something in and taking it out again, [k] times *)
  Definition idle (v : T) (k : nat) : list (dq_op T) := concat (replicate k [DPushBack v; DPopBack]).
  Lemma idle_ok v k n : (0 < ms)%nat → (spec_history (dq_spec cap) (idle v k) ([], n)).2 = ([], n + 2 * N.of_nat k).
  Proof.
    intros Hms. revert n. induction k as [|k IH]; intros n; [cbn; f_equal; lia|]. unfold idle. cbn [replicate concat]. rewrite spec_app.
    cbn [spec_history dq_spec app]. rewrite decide_True by (unfold lengthN; cbn [length]; lia). fold (idle v k).
    change (dq_spec cap DPopBack ([v], n + 1)) with (dq_spec cap DPopBack ([] ++ [v], n + 1)). cbn [dq_spec]. rewrite unsnoc_snoc. cbn [snd]. rewrite IH. f_equal. lia.
  Qed.
  Lemma idle_length v k : length (idle v k) = (2 * k)%nat.
  Proof. unfold idle. induction k as [|k IH]; [done|]. cbn [replicate concat]. rewrite app_length, IH. cbn [length]. lia. Qed.
  Lemma pushes_ok (w : list T) : ∀ l n, (length l + length w ≤ ms)%nat →
    (spec_history (dq_spec cap) (map DPushBack w) (l, n)).2 = (l ++ w, n + N.of_nat (length w)).
  Proof.
    induction w as [|x w IH]; intros l n Hl; [cbn; rewrite app_nil_r; f_equal; lia|]. cbn [map spec_history dq_spec length] in *.
    rewrite decide_True by (unfold lengthN; lia). specialize (IH (l ++ [x]) (n + 1)). rewrite app_length in IH. cbn [length] in IH. specialize (IH ltac:(lia)).
    destruct (spec_history (dq_spec cap) (map DPushBack w) (l ++ [x], n + 1)). cbn [snd] in *. rewrite IH, <- app_assoc. f_equal. lia.
  Qed.
  (** every state of which that holds is reached, by as many calls as its counter says *)
  Lemma ok_reached (v : T) l n : ok (l, n) → ∃ ops, state ops = (l, n) ∧ lengthN ops = n.
  Proof.
    intros (H1 & H2 & H3 & H4). cbn [fst snd] in *. destruct (decide (ms = 0%nat)) as [E0|E0].
    - specialize (H4 E0). subst n. destruct l; [|cbn [length] in H1; lia]. exists []. done.
    - assert (N.even (n - N.of_nat (length l)) = true) as He.
      { rewrite N.even_sub by done. rewrite H2. assert (N.even (N.of_nat (length l)) = Nat.even (length l)) as ->; [|by destruct (Nat.even (length l))].
        generalize (length l). induction n0 as [|m IH]; [done|]. rewrite Nat2N.inj_succ, <- N.add_1_r, even_S, neven_S, IH. done. }
      apply N.even_spec in He as [k Hk]. exists (idle v (N.to_nat k) ++ map DPushBack l). split.
      + rewrite spec_app, idle_ok, pushes_ok by (cbn [length]; lia). cbn [app]. f_equal. lia.
      + unfold lengthN. rewrite app_length, idle_length, map_length. lia.
  Qed.
End spec.

Section fact.
  Context `{Profile} {T : Type} (ms : nat) (v : T) (Hw : N.of_nat ms + 1 < W32).
  Notation after ops := (history dq_step ops (dq_new ms v)).2.
  Notation few ops := (overflow_checks = true → lengthN ops < W64).
  Notation state ops := (spec_history (dq_spec (T := T) (N.of_nat ms)) ops ([], 0)).2.
  Lemma W64_even : N.even W64 = true.
  Proof. done. Qed.
  Lemma even_mod n : N.even (n mod W64) = N.even n.
  Proof using Type.
    clear Hw. rewrite (N.div_mod n W64) at 2 by done. rewrite N.even_add, N.even_mul, W64_even. cbn [orb]. by destruct (N.even (n mod W64)).
  Qed.
  Lemma seen_fact (l : list T) (s : N) :
    (∃ ops, few ops ∧ (∃ es, es.*2 = l ∧ ∀ script, dq_iterate script (after ops) = Val (de_spec script es)) ∧ dq_seqno (after ops) = s) ↔ seen ms l s.
  Proof using Hw.
    split.
    - intros (ops & Hf & (es & <- & Hes) & <-). destruct (iter_entries ms v ops Hw Hf) as (es' & Hl & _ & _ & Hes').
      assert (es = es') as -> by (apply de_inj; intros sc; specialize (Hes sc); rewrite Hes' in Hes; by injection Hes).
      rewrite (proj1 (proj2 (dq_history_ok ms v ops Hw Hf))), Hl. destruct (history_ok ms ops ([], 0) (new_ok ms)) as (H1 & H2 & H3 & H4).
      pose proof (few_mutations ms ops ([], 0)) as Hm. cbn [snd] in Hm. unfold seen. split_and!; [done|by apply N.mod_upper_bound|by rewrite even_mod| |].
      + intros Hc. specialize (Hf Hc). rewrite N.mod_small by lia. done.
      + intros E. rewrite (H4 E). done.
    - intros (H1 & H2 & H3 & H4 & H5).
      assert (∃ n, n mod W64 = s ∧ ok ms (l, n) ∧ (overflow_checks = true → n = s)) as (n & Hn & Hok & Hc).
      { destruct (decide (N.of_nat (length l) ≤ s)) as [Hd|Hd].
        - exists s. split; [by apply N.mod_small|]. done.
        - assert (overflow_checks = false) as Hoc by (destruct overflow_checks; [specialize (H4 eq_refl); done|done]).
          exists (s + W64). split; [|split; [|by rewrite Hoc]].
          + replace (s + W64) with (s + 1 * W64) by lia. rewrite N.mod_add by done. by apply N.mod_small.
          + split_and!; cbn [fst snd]; [done| |unfold W32, W64 in *; lia|].
            * rewrite N.even_add, W64_even, H3. by destruct (Nat.even (length l)).
            * intros E. rewrite E in H1. lia. }
      destruct (ok_reached ms v l n Hok) as (ops & Hst & Hlen). exists ops.
      assert (few ops) as Hf by (intros E; rewrite Hlen, (Hc E); done). split; [done|].
      destruct (iter_entries ms v ops Hw Hf) as (es & Hl & _ & _ & Hes). rewrite Hst in Hl. split; [by exists es|].
      rewrite (proj1 (proj2 (dq_history_ok ms v ops Hw Hf))), Hst. done.
  Qed.
  Lemma parity_fact ops : few ops → N.even (dq_seqno (after ops)) = N.even (dq_len (after ops)).
  Proof using Hw.
    intros Hf. destruct (dq_history_ok ms v ops Hw Hf) as (_ & Hs & es & Ho & He). rewrite Hs, even_mod, (DOK_len _ _ _ Ho).
    rewrite (proj1 (proj2 (history_ok ms ops ([], 0) (new_ok ms)))). unfold lengthN.
    rewrite <- He, fmap_length. generalize (length es). clear.
    induction n as [|m IH]; [done|]. rewrite Nat2N.inj_succ, <- N.add_1_r, even_S, neven_S, <- IH. done.
  Qed.
End fact.
