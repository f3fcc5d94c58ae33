(** * Keys that share one bucket *)
From Verif Require Import OrderProof CostHt MtfProof UnivSpec UnivMain.
Local Open Scope nat_scope.

Section adv.
  Context {K : Type} (keq : K → K → bool) (nb : nat) (Hnb : 0 < nb) (hash : K → N).
  Notation bucket x := (N.to_nat (hash x mod N.of_nat nb)).
  Lemma sum_small (f : nat → nat) n l : (∀ j, j ∈ l → f j ≤ n) → sum_list (map f l) ≤ length l * n.
  Proof. intros Hl. rewrite <- sum_map_const. by apply sum_map_le. Qed.
  Lemma crowded (pool : list K) n : nb * (n - 1) < length pool → ∃ j, n ≤ inb nb hash j pool.
  Proof using Hnb.
    intros Hlen. destruct (decide (Forall (λ j, inb nb hash j pool < n) (seq 0 nb))) as [Hall|Hno].
    - exfalso. destruct (buckets_sums nb Hnb hash pool) as [Hs _]. pose proof (sum_small (λ j, inb nb hash j pool) (n - 1) (seq 0 nb)) as Hb.
      rewrite Hs, seq_length in Hb. rewrite Forall_forall in Hall. assert (length pool ≤ nb * (n - 1)); [|lia]. apply Hb. intros j Hj. specialize (Hall j Hj). cbn in *. lia.
    - apply not_Forall_Exists in Hno; [|intros ?; apply _]. apply Exists_exists in Hno as (j & _ & Hj). exists j. cbn in Hj. lia.
  Qed.
  Lemma inb_filter j (pool : list K) : inb nb hash j pool = length (filter (λ x, bucket x = j) pool).
  Proof using Type.
    clear Hnb. induction pool as [|x pool IH]; [done|]. rewrite inb_cons, IH, filter_cons. destruct (decide (bucket x = j)) as [E|E].
    - rewrite (proj2 (Nat.eqb_eq _ _) E). done.
    - rewrite (proj2 (Nat.eqb_neq _ _) E). done.
  Qed.
  Lemma one_bucket j ks : Forall (λ x, bucket x = j) ks → 2 * clashes nb hash ks = length ks * (length ks - 1).
  Proof using Type.
    clear Hnb. induction 1 as [|x ks Hx Hks IH]; [done|]. cbn [clashes length]. rewrite count_all.
    - destruct (length ks); nia.
    - eapply Forall_impl; [exact Hks|]. cbn. intros y Hy. unfold clash. apply N.eqb_eq. apply N2Nat.inj. by rewrite Hx, Hy.
  Qed.
  Lemma FOP_filter {A} (R : A → A → Prop) (P : A → Prop) `{∀ x, Decision (P x)} l : ForallOrdPairs R l → ForallOrdPairs R (filter P l).
  Proof.
    induction 1 as [|x l Hx Hl IH]; [constructor|]. rewrite filter_cons. destruct (decide (P x)); [|done]. constructor; [|done].
    rewrite Forall_forall in Hx |- *. intros y Hy. apply elem_of_list_filter in Hy as [_ Hy]. by apply Hx.
  Qed.
  Lemma FOP_take {A} (R : A → A → Prop) n l : ForallOrdPairs R l → ForallOrdPairs R (take n l).
  Proof. intros Hl. rewrite <- (take_drop n l) in Hl. by eapply FOP_app_l. Qed.
  Lemma inserted {V} (v : V) cap ks : (∀ x y, keq x y = keq y x) → ForallOrdPairs (λ x y, keq x y = false) ks → (lengthN ks ≤ cap)%N →
    keys_after keq cap (map (λ k, HInsert k v) ks) = rev ks.
  Proof using Type.
    clear Hnb. intros Hs. unfold keys_after. induction ks as [|k ks IH] using rev_ind; intros Hd Hl; [done|]. unfold lengthN in *. rewrite app_length in Hl. cbn [length] in Hl.
    rewrite map_app, fold_left_app, IH; [|by eapply FOP_app_l|lia]. rewrite rev_app_distr. cbn [map fold_left keys_step rev app].
    assert (existsb (λ x, keq x k) (rev ks) = false) as ->.
    { apply not_true_is_false. intros Hex. apply existsb_exists in Hex as (x & Hx & He). apply in_rev, elem_of_list_In in Hx. apply FOP_mid in Hd.
      rewrite Forall_forall in Hd. rewrite (Hd x Hx) in He. done. }
    rewrite decide_True; [done|]. unfold lengthN. rewrite rev_length. lia.
  Qed.
End adv.

Section fact.
  Context `{Profile} {K V : Type} (keq : K → K → bool) (nb ms : nat) (d : K * V).
  Context (h0 : htable K V) (Hnew : ht_new nb ms d = Some h0) (Hnb : 0 < nb) (Hw : (N.of_nat ms + 1 < W32)%N).
  Lemma adversary_fact (hash : K → N) (HL : HashLaws keq hash) (v : V) (pool : list K) (n : nat) :
    ForallOrdPairs (λ x y, keq x y = false) pool → nb * (n - 1) < length pool → n ≤ ms →
    ∃ ks, ks ⊆ pool ∧ length ks = n ∧ let h := (history (ht_step keq hash) (map (λ k, HInsert k v) ks) h0).2 in
      ∀ r : K → nat, (∀ k, k ∈ ks → htn_get keq hash (r k) h k ≠ Err OutOfFuel) → n * (n + 1) ≤ 2 * sum_list (map r ks).
  Proof using Hnew Hnb Hw.
    intros Hd Hlen Hn. destruct (crowded nb Hnb hash pool n Hlen) as [j Hj]. rewrite inb_filter in Hj.
    set (ks := take n (filter (λ x, N.to_nat (hash x mod N.of_nat nb) = j) pool)). assert (length ks = n) as El by (unfold ks; rewrite take_length; lia).
    exists ks. split; [intros x Hx; eapply elem_of_list_filter; eapply elem_of_take in Hx as (i & Hx & _); eapply elem_of_list_lookup_2; exact Hx|]. split; [done|]. intros h r Hr.
    assert (ForallOrdPairs (λ x y, keq x y = false) ks) as Hdk by (apply FOP_take, FOP_filter; done).
    pose proof (inserted keq v (N.of_nat ms) ks (keq_sym _ _ HL) Hdk ltac:(unfold lengthN; lia)) as Hk.
    destruct (exact_fact keq nb ms d h0 Hnew Hnb Hw hash HL (map (λ k, HInsert k v) ks)) as (r0 & Hr0 & Hsum & _). rewrite Hk in Hsum.
    assert (rev ks ≡ₚ ks) as Hrev by (symmetry; apply Permutation_rev).
    rewrite (sum_perm _ _ (Permutation_map r0 Hrev)), (clashes_perm _ _ _ _ Hrev), rev_length, El in Hsum.
    pose proof (one_bucket nb hash j ks) as Hc. rewrite El in Hc.
    assert (sum_list (map r0 ks) ≤ sum_list (map r ks)) as Hle.
    { apply sum_map_le. intros k Hin. apply Nat.nlt_ge. intros Hlt. apply (Hr k Hin). by apply (Hr0 k (r k)). }
    assert (2 * clashes nb hash ks = n * (n - 1)) as Hc'.
    { apply Hc. apply Forall_forall. intros x Hx. eapply elem_of_take in Hx as (i & Hx & _). apply elem_of_list_lookup_2, elem_of_list_filter in Hx as [? _]. done. }
    destruct n; nia.
  Qed.
End fact.
