(** * C94: what the lookups of the HashTable cost on the average over a universal family of hash functions *)
From Coq Require Import Znumtheory.
From Verif Require Import OrderProof CostHt MtfProof BenchProof UnivSpec UnivMain AdvMain.
Local Open Scope nat_scope.

(** [h0] is [HashTable::<K, V, nb, ms>::new()], [after hash o] the table after the calls [o] if the keys are hashed with [hash],
    [keys o] the keys it holds, which the calls alone determine (UnivSpec.v). [htn_get … n] (CostModel.v) is [get] with at most [n] rounds
    of the loop that follows a chain, so the [r] below are the rounds it makes. *)
Section props.
  Context `{Profile} {K V : Type} (keq : K → K → bool) (nb ms : nat) (d : K * V).
  Context (h0 : htable K V) (Hnew : ht_new nb ms d = Some h0) (Hnb : 0 < nb) (Hw : (N.of_nat ms + 1 < W32)%N).
  Notation after hash o := (history (ht_step keq hash) o h0).2.
  Notation keys := (keys_after keq (N.of_nat ms)).

  (** [keys] is what the code holds: the iterator gives just these keys, whatever the hash function *)
  Theorem C94_keys (hash : K → N) (HL : HashLaws keq hash) (o : list (hm_op K V)) :
    ∃ l, (∀ script, ht_iterate (after hash o) script = Val (fw_spec script l)) ∧ l.*1 ≡ₚ keys o.
  Proof. exact (keys_fact keq nb ms d h0 Hnew Hnb Hw hash HL o). Qed.

  (** After any history, looking up every key held takes one round for each and one for each pair of keys that share a bucket, however the
      calls have moved the entries about in their chains. A key not held takes one round and one for each key in its bucket. *)
  Theorem C94_total (hash : K → N) (HL : HashLaws keq hash) (o : list (hm_op K V)) :
    ∃ r : K → nat,
      (∀ k n, (r k ≤ n → htn_get keq hash n (after hash o) k = ht_get keq hash (after hash o) k) ∧
        (n < r k → htn_get keq hash n (after hash o) k = Err OutOfFuel)) ∧
      sum_list (map r (keys o)) = length (keys o) + clashes nb hash (keys o) ∧
      ∀ k, Forall (λ x, keq x k = false) (keys o) → r k = 1 + count (clash nb hash k) (keys o).
  Proof. exact (exact_fact keq nb ms d h0 Hnew Hnb Hw hash HL o). Qed.

  (** Let [hs] be a universal family. On the average over [hs] looking up a key held takes at most [1 + (n - 1) / (2 nb)] rounds, on the
      average over the [n] keys held as well; looking up any one key not held takes at most [1 + n / nb]. *)
  Theorem C94_average (hs : list (K → N)) (HL : Forall (HashLaws keq) hs) (o : list (hm_op K V)) :
    let n := length (keys o) in
    ∃ r : (K → N) → K → nat,
      (∀ hash k m, (r hash k ≤ m → htn_get keq hash m (after hash o) k = ht_get keq hash (after hash o) k) ∧
        (m < r hash k → htn_get keq hash m (after hash o) k = Err OutOfFuel)) ∧
      (universal keq nb hs (keys o) →
        2 * (nb * sum_list (map (λ hash, sum_list (map (r hash) (keys o))) hs)) ≤ length hs * (n * (2 * nb + (n - 1)))) ∧
      ∀ k, Forall (λ x, keq x k = false) (keys o) → universal keq nb hs (k :: keys o) →
        nb * sum_list (map (λ hash, r hash k) hs) ≤ length hs * (nb + n).
  Proof. exact (family_fact keq nb ms d h0 Hnew Hnb Hw hs HL o). Qed.

  (** No hash function does much better: whatever it is, numbers of rounds that are enough for the keys held are at least
      [(n / nb + 1) / 2] on the average over these keys. *)
  Theorem C94_least (hash : K → N) (HL : HashLaws keq hash) (o : list (hm_op K V)) (r : K → nat) :
    let n := length (keys o) in
    (∀ k, k ∈ keys o → htn_get keq hash (r k) (after hash o) k ≠ Err OutOfFuel) → n * (n + nb) ≤ 2 * (nb * sum_list (map r (keys o))).
  Proof. exact (least_fact94 keq nb ms d h0 Hnew Hnb Hw hash HL o r). Qed.

  (** But a hash function that is known has bad keys: of any [nb * (n - 1) + 1] different keys there are [n] that, when inserted, need
      together [1 + 2 + … + n] rounds, [(n + 1) / 2] each. *)
  Theorem C94_bad_keys (hash : K → N) (HL : HashLaws keq hash) (v : V) (pool : list K) (n : nat) :
    ForallOrdPairs (λ x y, keq x y = false) pool → nb * (n - 1) < length pool → n ≤ ms →
    ∃ ks, ks ⊆ pool ∧ length ks = n ∧ let h := after hash (map (λ k, HInsert k v) ks) in
      ∀ r : K → nat, (∀ k, k ∈ ks → htn_get keq hash (r k) h k ≠ Err OutOfFuel) → n * (n + 1) ≤ 2 * sum_list (map r ks).
  Proof. exact (adversary_fact keq nb ms d h0 Hnew Hnb Hw hash HL v pool n). Qed.
End props.
Print Assumptions C94_keys.
Print Assumptions C94_total.
Print Assumptions C94_average.
Print Assumptions C94_least.
Print Assumptions C94_bad_keys.

(** There are universal families for every number of buckets and all keys: *)
Theorem C94_family_exists (nb : nat) (ks : list N) : 0 < nb → ∃ hs, hs ≠ [] ∧ universal N.eqb nb hs ks.
Proof. exact (universal_exists nb ks). Qed.
(** for a prime number of buckets the linear functions of the digits, … *)
Theorem C94_linear_family (nb m : nat) (ks : list N) :
  prime (Z.of_nat nb) → Forall (λ k, k < N.of_nat nb ^ N.of_nat m)%N ks → universal N.eqb nb (linear_family nb m) ks.
Proof. exact (linear_universal nb m ks). Qed.
(** … and for a product (NUM_BUCKETS is even) the pairs of functions, for any type of keys. *)
Theorem C94_product_family {K} (keq : K → K → bool) (a b : nat) (fs gs : list (K → N)) (ks : list K) :
  0 < a → 0 < b → universal keq a fs ks → universal keq b gs ks → universal keq (a * b) (product_family a b fs gs) ks.
Proof. exact (product_universal keq a b fs gs ks). Qed.
Print Assumptions C94_family_exists.
Print Assumptions C94_linear_family.
Print Assumptions C94_product_family.

(** Four buckets, the 64 pairs of linear functions of three binary digits; 2 removed again, 1 given a new value, 0 looked up with
    [get_mut]. *)
Section example.
  Local Instance ex_profile : Profile := {| overflow_checks := true |}.
  Let hs : list (N → N) := product_family 2 2 (linear_family 2 3) (linear_family 2 3).
  Let o : list (hm_op N N) := [HInsert 1 10; HInsert 2 12; HInsert 4 11; HInsert 1 13; HInsert 0 14; HRemove 2; HInsert 5 15; HGetMut 0 N.succ; HInsert 7 16;
    HInsert 3 17]%N.
  Let ks : list N := [7; 5; 0; 4; 1]%N.
  Let h (hash : N → N) : option (htable N N) := option_map (λ h0, (history (ht_step N.eqb hash) o h0).2) (ht_new 4 5 (0, 0)%N).
  (** the rounds [get] needs: the number of limits that are too low *)
  Let rounds (hash : N → N) (k : N) : nat :=
    match h hash with
    | Some h => count (λ n, match htn_get N.eqb hash n h k with Err OutOfFuel => true | _ => false end) (seq 0 9)
    | None => 0
    end.
  Example ex_C94_hyps : keys_after N.eqb 5 o = ks ∧ Forall (HashLaws N.eqb) hs ∧ universal N.eqb 4 hs (3%N :: ks) ∧ universal N.eqb 4 hs ks.
  Proof.
    split; [vm_compute; reflexivity|]. split; [apply Forall_forall; intros f _; apply Neqb_laws|].
    split; apply (C94_product_family N.eqb 2 2); try lia; apply C94_linear_family; try exact prime_2; repeat constructor.
  Qed.
  (** the identity as hash function: 5 and 1 share a bucket, and 0 and 4 *)
  Example ex_C94_identity : map (rounds id) ks = [1; 1; 1; 2; 2] ∧ clashes 4 id ks = 2 ∧ rounds id 3%N = 2.
  Proof. vm_compute. repeat split. Qed.
  (** bad keys for the identity, chosen from 0, …, 8: 0, 4, 8 need 3, 2, 1 rounds *)
  Example ex_C94_bad : 4 * (3 - 1) < length (map N.of_nat (seq 0 9)) ∧ ForallOrdPairs (λ x y, (x =? y)%N = false) (map N.of_nat (seq 0 9)) ∧
    option_map (λ h0, let h := (history (ht_step N.eqb id) (map (λ k, HInsert k 0%N) [0; 4; 8]%N) h0).2 in
      map (λ k, (htn_get N.eqb id 1 h k, htn_get N.eqb id 2 h k, htn_get N.eqb id 3 h k)) [0; 4; 8]%N) (ht_new 4 5 (0, 0)%N) =
    Some [(Err OutOfFuel, Err OutOfFuel, Val (Some 0%N)); (Err OutOfFuel, Val (Some 0%N), Val (Some 0%N)); (Val (Some 0%N), Val (Some 0%N), Val (Some 0%N))].
  Proof. split; [cbn; lia|]. split; [repeat constructor|]. vm_compute. reflexivity. Qed.
  (** the whole family: 480 rounds for the keys held, which is 64 * 5 * 12 / 8; 144 for a key not held, which is 64 * 9 / 4: the bounds of
      C94_average are attained *)
  Example ex_C94_family : length hs = 64 ∧ sum_list (map (λ hash, sum_list (map (rounds hash) ks)) hs) = 480 ∧ sum_list (map (λ hash, rounds hash 3%N) hs) = 144.
  Proof. vm_compute. repeat split. Qed.
End example.
