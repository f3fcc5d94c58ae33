(** * C63: the repository's own randomised test (tests/test.rs), for every outcome of its random choices.

    [simulate] fills the map, empties it, makes a hundred rounds of random insertions, removals and updates beside a BTreeMap, and then compares
    the two through every iterator. The random choices are a parameter [R]: the key, the value, the third of the unit interval, the number and the
    shuffle that the [n]-th draw gives. The theorems say for which choices the test passes.

    - If the keys drawn are different, it passes for RedBlackTree, AVLTree and Critbit exactly when the map holds at least three entries after the
      hundred rounds; otherwise it panics at [gen_range(1, len - 1)] (or at [len - 1] for an empty map), though the map is right. For HashTable it
      passes.
    - A repeated key among the first MAX_SIZE makes it panic, though the map is right: [s] counts calls. *)
From Verif Require Import TestModel TestTrees TestHash.

Section C63.
  Context `{Profile} {K V : Type} `{EqDecision V}.
  Theorem C63_rb_simulate (cmp : K → K → comparison) : OrdLaws cmp →
    ∀ (ms : nat) (d : K * V) (R : rng K V), (0 < ms)%nat → N.of_nat ms + 1 < W32 →
    (∀ i j, i < 202 * N.of_nat ms + 203 → j < 202 * N.of_nat ms + 203 → cmp (r_key R i) (r_key R j) = Eq → i = j) →
    (∀ n l, r_shuffle R n l ≡ₚ l) →
    match test_simulate_rb cmp R ms d with
    | Ret _ st => 3 ≤ rb_len (m_tree st)
    | Fail e st => e = Panic ∧ rb_len (m_tree st) < 3
    end.
  Proof using Type. intros HO ms d R H0 Hw. exact (rb_simulate ms d H0 Hw R cmp HO). Qed.
  Theorem C63_av_simulate (pcmp : K → K → option comparison) : OrdLaws (po_cmp pcmp) →
    ∀ (ms : nat) (d : K * V) (R : rng K V), (0 < ms)%nat → N.of_nat ms + 1 < W32 →
    (∀ i j, i < 202 * N.of_nat ms + 203 → j < 202 * N.of_nat ms + 203 → po_cmp pcmp (r_key R i) (r_key R j) = Eq → i = j) →
    (∀ n l, r_shuffle R n l ≡ₚ l) →
    match test_simulate_av pcmp R ms d with
    | Ret _ st => 3 ≤ av_len (m_tree st)
    | Fail e st => e = Panic ∧ av_len (m_tree st) < 3
    end.
  Proof using Type. intros HO ms d R H0 Hw. exact (av_simulate ms d H0 Hw R pcmp HO). Qed.
  Theorem C63_cb_simulate (nn ms : nat) (d : V) (t0 : critbit V) (R : rng N V) :
    (0 < ms)%nat → N.of_nat nn + 1 < W32 → cb_new nn ms d = Some t0 → (∀ n, r_key R n < W128) →
    (∀ i j, i < 202 * N.of_nat ms + 203 → j < 202 * N.of_nat ms + 203 → r_key R i = r_key R j → i = j) →
    (∀ n l, r_shuffle R n l ≡ₚ l) →
    match test_simulate_cb R ms t0 with
    | Ret _ st => 3 ≤ cb_len (m_tree st)
    | Fail e st => e = Panic ∧ cb_len (m_tree st) < 3
    end.
  Proof using Type. intros H0 Hw Hn Hd. exact (cb_simulate nn ms d t0 H0 Hw Hn R Hd). Qed.
  Theorem C63_ht_simulate (keq : K → K → bool) (hash : K → N) (cmp : K → K → comparison) :
    HashLaws keq hash → OrdLaws cmp → (∀ a b, keq a b = true ↔ cmp a b = Eq) →
    ∀ (nb ms : nat) (d : K * V) (h0 : htable K V) (R : rng K V), ht_new nb ms d = Some h0 → (0 < nb)%nat → N.of_nat ms + 1 < W32 →
    (∀ i j, i < 202 * N.of_nat ms + 203 → j < 202 * N.of_nat ms + 203 → cmp (r_key R i) (r_key R j) = Eq → i = j) →
    (∀ n l, r_shuffle R n l ≡ₚ l) →
    ∃ st, test_simulate_ht keq hash cmp R ms h0 = Ret () st.
  Proof using Type. intros HL HO Hc nb ms d h0 R Hn Hb Hw. exact (ht_simulate keq hash HL cmp HO Hc nb ms d h0 Hn Hb Hw R). Qed.

  (** A repeated key among the keys of the first loop *)
  Theorem C63_rb_same_key (cmp : K → K → comparison) : OrdLaws cmp →
    ∀ (ms : nat) (d : K * V) (R : rng K V) (i j : nat), (0 < ms)%nat → N.of_nat ms + 1 < W32 →
    (i < j < ms)%nat → cmp (r_key R (2 * N.of_nat i)) (r_key R (2 * N.of_nat j)) = Eq → ∃ st, test_simulate_rb cmp R ms d = Fail Panic st.
  Proof using Type. intros HO ms d R i j H0 Hw. exact (rb_same_key ms d H0 Hw R cmp HO i j). Qed.
  Theorem C63_av_same_key (pcmp : K → K → option comparison) : OrdLaws (po_cmp pcmp) →
    ∀ (ms : nat) (d : K * V) (R : rng K V) (i j : nat), (0 < ms)%nat → N.of_nat ms + 1 < W32 →
    (i < j < ms)%nat → po_cmp pcmp (r_key R (2 * N.of_nat i)) (r_key R (2 * N.of_nat j)) = Eq → ∃ st, test_simulate_av pcmp R ms d = Fail Panic st.
  Proof using Type. intros HO ms d R i j H0 Hw. exact (av_same_key ms d H0 Hw R pcmp HO i j). Qed.
  Theorem C63_cb_same_key (nn ms : nat) (d : V) (t0 : critbit V) (R : rng N V) (i j : nat) :
    (0 < ms)%nat → N.of_nat nn + 1 < W32 → cb_new nn ms d = Some t0 → (∀ n, r_key R n < W128) →
    (i < j < ms)%nat → r_key R (2 * N.of_nat i) = r_key R (2 * N.of_nat j) → ∃ st, test_simulate_cb R ms t0 = Fail Panic st.
  Proof using Type. intros H0 Hw Hn Hd. exact (cb_same_key nn ms d t0 H0 Hw Hn R Hd i j). Qed.
  Theorem C63_ht_same_key (keq : K → K → bool) (hash : K → N) (cmp : K → K → comparison) :
    HashLaws keq hash → OrdLaws cmp → (∀ a b, keq a b = true ↔ cmp a b = Eq) →
    ∀ (nb ms : nat) (d : K * V) (h0 : htable K V) (R : rng K V) (i j : nat), ht_new nb ms d = Some h0 → (0 < nb)%nat → N.of_nat ms + 1 < W32 →
    (i < j < ms)%nat → cmp (r_key R (2 * N.of_nat i)) (r_key R (2 * N.of_nat j)) = Eq → ∃ st, test_simulate_ht keq hash cmp R ms h0 = Fail Panic st.
  Proof using Type. intros HL HO Hc nb ms d h0 R i j Hn Hb Hw. exact (ht_same_key keq hash HL cmp HO Hc nb ms d h0 Hn Hb Hw R i j). Qed.

  (** A hundred samples of at least 0.66: the map is empty when the double-ended checks start *)
  Theorem C63_rb_unlucky (cmp : K → K → comparison) : OrdLaws cmp →
    ∀ (ms : nat) (d : K * V) (R : rng K V), (0 < ms)%nat → N.of_nat ms + 1 < W32 →
    (∀ i j, i < 2 * N.of_nat ms + 3 → j < 2 * N.of_nat ms + 3 → cmp (r_key R i) (r_key R j) = Eq → i = j) →
    (∀ n l, r_shuffle R n l ≡ₚ l) → (∀ n, r_third R n = High) → ∃ st, test_simulate_rb cmp R ms d = Fail Panic st.
  Proof using Type. intros HO ms d R H0 Hw. exact (rb_unlucky ms d H0 Hw R cmp HO). Qed.
  Theorem C63_av_unlucky (pcmp : K → K → option comparison) : OrdLaws (po_cmp pcmp) →
    ∀ (ms : nat) (d : K * V) (R : rng K V), (0 < ms)%nat → N.of_nat ms + 1 < W32 →
    (∀ i j, i < 2 * N.of_nat ms + 3 → j < 2 * N.of_nat ms + 3 → po_cmp pcmp (r_key R i) (r_key R j) = Eq → i = j) →
    (∀ n l, r_shuffle R n l ≡ₚ l) → (∀ n, r_third R n = High) → ∃ st, test_simulate_av pcmp R ms d = Fail Panic st.
  Proof using Type. intros HO ms d R H0 Hw. exact (av_unlucky ms d H0 Hw R pcmp HO). Qed.
  Theorem C63_cb_unlucky (nn ms : nat) (d : V) (t0 : critbit V) (R : rng N V) :
    (0 < ms)%nat → N.of_nat nn + 1 < W32 → cb_new nn ms d = Some t0 → (∀ n, r_key R n < W128) →
    (∀ i j, i < 2 * N.of_nat ms + 3 → j < 2 * N.of_nat ms + 3 → r_key R i = r_key R j → i = j) →
    (∀ n l, r_shuffle R n l ≡ₚ l) → (∀ n, r_third R n = High) → ∃ st, test_simulate_cb R ms t0 = Fail Panic st.
  Proof using Type. intros H0 Hw Hn Hd. exact (cb_unlucky nn ms d t0 H0 Hw Hn R Hd). Qed.
End C63.
Print Assumptions C63_rb_simulate.
Print Assumptions C63_av_simulate.
Print Assumptions C63_cb_simulate.
Print Assumptions C63_ht_simulate.
Print Assumptions C63_rb_same_key.
Print Assumptions C63_av_same_key.
Print Assumptions C63_cb_same_key.
Print Assumptions C63_ht_same_key.
Print Assumptions C63_rb_unlucky.
Print Assumptions C63_av_unlucky.
Print Assumptions C63_cb_unlucky.

(** ** Examples: MAX_SIZE 12, keys that jump about, values and choices from a multiplicative generator *)
Local Instance ex_profile : Profile := {| overflow_checks := true |}.
Definition ex_pick (n : N) : N := (n + 1) * 2654435761 mod 4294967291.
Definition ex_key (n : N) : N := n * 48271 mod 65537.
Definition ex_rng : rng N N := {|
  r_key := ex_key; r_val := ex_pick;
  r_third n := match ex_pick (n + 7) mod 3 with 0 => Low | 1 => Mid | _ => High end;
  r_num n := ex_pick (n + 13); r_shuffle _ l := rev l |}.
Definition ex_high : rng N N := {| r_key := ex_key; r_val := ex_pick; r_third _ := High; r_num := ex_pick; r_shuffle _ l := rev l |}.
Lemma ex_key_inj i j : i < 202 * 12 + 203 → j < 202 * 12 + 203 → ex_key i = ex_key j → i = j.
Proof.
  assert (∀ n, n < 2627 → ex_key n * 36587 mod 65537 = n) as Hinv.
  { intros n Hn. assert (forallb (λ k, ex_key (N.of_nat k) * 36587 mod 65537 =? N.of_nat k) (seq 0 (N.to_nat 2627)) = true) as Hall by by vm_compute.
    rewrite forallb_forall in Hall. specialize (Hall (N.to_nat n)). rewrite N2Nat.id in Hall. apply N.eqb_eq, Hall, in_seq. lia. }
  intros Hi Hj He. rewrite <- (Hinv i Hi), He. by apply Hinv.
Qed.
Lemma ex_inj i j : i < 202 * N.of_nat 12 + 203 → j < 202 * N.of_nat 12 + 203 → N.compare (r_key ex_rng i) (r_key ex_rng j) = Eq → i = j.
Proof. intros Hi Hj He%N.compare_eq_iff. by apply ex_key_inj. Qed.
Definition ex_view {S} (o : outcome (sim S N N) ()) : option err * N * N :=
  match o with Ret _ st => (None, m_draws st, m_s st) | Fail e st => (Some e, m_draws st, m_s st) end.
Definition ex_pcmp (a b : N) : option comparison := Some (N.compare a b).


(** The hypotheses hold and the test passes with nine entries left *)
Lemma ex_perm n l : r_shuffle ex_rng n l ≡ₚ l.
Proof. cbn. by rewrite <- Permutation_rev. Qed.
Example ex_C63_rb : ex_view (test_simulate_rb N.compare ex_rng 12 (0, 0)) = (None, 564, 9).
Proof. by vm_compute. Qed.
Example ex_C63_av : ex_view (test_simulate_av ex_pcmp ex_rng 12 (0, 0)) = (None, 564, 9).
Proof. by vm_compute. Qed.
Example ex_C63_cb : (∀ n, r_key ex_rng n < W128) ∧ (λ t0, ex_view (test_simulate_cb ex_rng 12 t0)) <$> cb_new 24 12 0 = Some (None, 564, 9).
Proof.
  split; [|by vm_compute]. intros n. cbn [r_key ex_rng]. unfold ex_key. pose proof (N.mod_lt (n * 48271) 65537 ltac:(done)) as Hm.
  etrans; [exact Hm|by vm_compute].
Qed.
Example ex_C63_ht :
  (∀ a b : N, N.eqb a b = true ↔ N.compare a b = Eq) ∧
  (λ h0, ex_view (test_simulate_ht N.eqb (λ k, k) N.compare ex_rng 12 h0)) <$> ht_new 4 12 (0, 0) = Some (None, 544, 9).
Proof. split; [|by vm_compute]. intros a b. by rewrite N.eqb_eq, N.compare_eq_iff. Qed.
Example ex_C63_same_key :
  let R := {| r_key n := n / 6; r_val := ex_pick; r_third _ := Low; r_num := ex_pick; r_shuffle _ (l : list N) := l |} in
  N.compare (r_key R (2 * N.of_nat 3)) (r_key R (2 * N.of_nat 4)) = Eq ∧ ex_view (test_simulate_rb N.compare R 12 (0, 0)) = (Some Panic, 4, 2).
Proof. split; by vm_compute. Qed.

(** "With different keys the test passes" is false of the trees *)
Theorem C63_simulate_passes_refuted : ∃ R : rng N N,
  (∀ i j, i < 202 * N.of_nat 12 + 203 → j < 202 * N.of_nat 12 + 203 → N.compare (r_key R i) (r_key R j) = Eq → i = j) ∧
  (∀ n l, r_shuffle R n l ≡ₚ l) ∧
  (∃ st, test_simulate_rb N.compare R 12 (0, 0) = Fail Panic st) ∧
  (∃ st, test_simulate_av ex_pcmp R 12 (0, 0) = Fail Panic st) ∧
  ∃ t0, cb_new 24 12 0 = Some t0 ∧ ∃ st, test_simulate_cb R 12 t0 = Fail Panic st.
Proof.
  exists ex_high. split; [exact ex_inj|]. split; [exact ex_perm|]. split; [eexists; by vm_compute|]. split; [eexists; by vm_compute|].
  eexists. split; [by vm_compute|]. eexists. by vm_compute.
Qed.
Print Assumptions C63_simulate_passes_refuted.
