(** * C85: what the lookups of the HashTable cost, and what moving to the front is worth *)
From Verif Require Import OrderProof MtfProof.
Local Open Scope nat_scope.

(** [h0] is [HashTable::<K, V, nb, ms>::new()], [after o] the table after the calls [o], [tables o] its chains as C53 describes them. The
    functions [htn_…] (CostModel.v) are the models with at most [n] rounds of the loop that follows a chain, every look at the loop's
    condition a round; [looks_in] (MtfSpec.v) says where in its chain a key is. *)
Section props.
  Context `{Profile} {K V : Type} (keq : K → K → bool) (hash : K → N) (nb ms : nat) (d : K * V).
  Context (h0 : htable K V) (Hnew : ht_new nb ms d = Some h0) (Hnb : 0 < nb) (Hw : (N.of_nat ms + 1 < W32)%N).
  Notation tables o := (spec_history (hb_spec keq hash (N.of_nat ms)) o (replicate nb [])).2.
  Notation after o := (history (ht_step keq hash) o h0).2.
  Notation get_muts := (history (λ c : K * (V → V), ht_get_mut keq hash c.1 c.2)).
  Notation get_muts_n := (history (λ cn : K * (V → V) * nat, htn_get_mut keq hash cn.2 cn.1.1 cn.1.2)).

  (** Each of the six functions that follow a chain makes exactly [looks_in … k] rounds, for every [==] and every hash function: with so
      many it does what it does without a limit, with one less it does not get to an answer and has changed nothing. *)
  Theorem C85_rounds (o : list (hm_op K V)) (k : K) (n : nat) :
    let h := after o in
    (looks_in keq hash (tables o) k ≤ n →
      htn_get keq hash n h k = ht_get keq hash h k ∧ htn_contains keq hash n h k = ht_contains keq hash h k ∧
      htn_get_addr keq hash n h k = ht_get_addr keq hash h k ∧ (∀ f, htn_get_mut keq hash n k f h = ht_get_mut keq hash k f h) ∧
      (∀ v, htn_insert keq hash n k v h = ht_insert keq hash k v h) ∧ htn_remove keq hash n k h = ht_remove keq hash k h) ∧
    (n < looks_in keq hash (tables o) k →
      htn_get keq hash n h k = Err OutOfFuel ∧ htn_contains keq hash n h k = Err OutOfFuel ∧ htn_get_addr keq hash n h k = Err OutOfFuel ∧
      (∀ f, htn_get_mut keq hash n k f h = Fail OutOfFuel h) ∧ (∀ v, htn_insert keq hash n k v h = Fail OutOfFuel h) ∧
      htn_remove keq hash n k h = Fail OutOfFuel h).
  Proof. exact (rounds_fact keq hash nb ms d h0 Hnew Hnb Hw o k n). Qed.

  (** [get_mut] moves what it finds to the front. Let [cs] be any calls of [get_mut] on the table, and [ns] the rounds they take, one
      number for each call: enough for each, and the least that is. Together they are at most twice the rounds the same calls would
      take if the chains had any other order [T'] that no call changes, plus one for each pair of entries in the same chain. *)
  Theorem C85_get_mut_twice (HL : HashLaws keq hash) (o : list (hm_op K V)) (cs : list (K * (V → V))) (T' : list (list (K * V))) :
    rearranged (tables o) T' →
    ∃ ns, length ns = length cs ∧ get_muts_n (zip cs ns) (after o) = get_muts cs (after o) ∧
      (∀ ns', length ns' = length cs → (get_muts_n (zip cs ns') (after o)).1 = (get_muts cs (after o)).1 → Forall2 le ns ns') ∧
      sum_list ns ≤ 2 * sum_list (map (λ c, looks_in keq hash T' c.1) cs) + sharing (tables o).
  Proof. exact (mtf_fact keq hash nb ms d h0 Hnew Hnb Hw HL o cs T'). Qed.
End props.
Print Assumptions C85_rounds.
Print Assumptions C85_get_mut_twice.

(** Nothing less than twice will do: for every fraction [a/b] below two, and whatever may be added that depends on the size of the table
    only, there are a table, calls and an order of the chains for which the calls take more than [a/b] times the rounds in that order. *)
Theorem C85_twice_least `{Profile} (a b : nat) (extra : nat → nat) : a < 2 * b → (N.of_nat a + 2 < W32)%N →
  ∃ (ms : nat) (h0 : htable N N) (o : list (hm_op N N)) (cs : list (N * (N → N))) (T' : list (list (N * N))),
    let hash := λ _ : N, 0%N in let h := (history (ht_step N.eqb hash) o h0).2 in
    ht_new 2 ms (0, 0)%N = Some h0 ∧ rearranged (spec_history (hb_spec N.eqb hash (N.of_nat ms)) o (replicate 2 [])).2 T' ∧
    ∀ ns, length ns = length cs →
      (history (λ cn : N * (N → N) * nat, htn_get_mut N.eqb hash cn.2 cn.1.1 cn.1.2) (zip cs ns) h).1 =
      (history (λ c : N * (N → N), ht_get_mut N.eqb hash c.1 c.2) cs h).1 →
      a * sum_list (map (λ c, looks_in N.eqb hash T' c.1) cs) + extra ms < b * sum_list ns.
Proof. exact (two_fact a b extra). Qed.
Print Assumptions C85_twice_least.

(** [get], which the trait names first, moves nothing: no factor [c] bounds what its calls cost by what they would in another order. *)
Theorem C85_get_refuted `{Profile} (c : nat) (extra : nat → nat) : (N.of_nat c + 2 < W32)%N →
  ∃ (ms : nat) (h0 : htable N N) (o : list (hm_op N N)) (ks : list N) (T' : list (list (N * N))),
    let hash := λ _ : N, 0%N in let h := (history (ht_step N.eqb hash) o h0).2 in
    ht_new 2 ms (0, 0)%N = Some h0 ∧ rearranged (spec_history (hb_spec N.eqb hash (N.of_nat ms)) o (replicate 2 [])).2 T' ∧
    ∀ ns, Forall2 (λ k n, htn_get N.eqb hash n h k = ht_get N.eqb hash h k) ks ns →
      c * sum_list (map (looks_in N.eqb hash T') ks) + extra ms < sum_list ns.
Proof. exact (get_fact c extra). Qed.
Print Assumptions C85_get_refuted.

(** Two buckets, the hash the identity. After the insertions the chains are 4, 2, 0 and 1. The calls of [get_mut] take 3, 1, 1, 3, 1, 2
    rounds, 11 together; with the chain 0, 2, 4 for ever they would take 8; three pairs share a chain. *)
Section example.
  Local Instance ex_profile : Profile := {| overflow_checks := true |}.
  Let o : list (hm_op N N) := [HInsert 0 10; HInsert 2 12; HInsert 1 11; HInsert 4 14]%N.
  Let T : list (list (N * N)) := [[(4, 14); (2, 12); (0, 10)]; [(1, 11)]]%N.
  Let T' : list (list (N * N)) := [[(0, 0); (2, 0); (4, 0)]; [(1, 0)]]%N.
  Let cs : list (N * (N → N)) := map (λ k, (k, N.succ)) [0; 0; 0; 2; 1; 9]%N.
  Let h : option (htable N N) := option_map (λ h0, (history (ht_step N.eqb id) o h0).2) (ht_new 2 4 (0, 0)%N).
  Let run (ns : list nat) : option (list (res (option N))) :=
    option_map (λ h, (history (λ cn : N * (N → N) * nat, htn_get_mut N.eqb id cn.2 cn.1.1 cn.1.2) (zip cs ns) h).1) h.
  Example ex_C85_tables : (spec_history (hb_spec N.eqb id 4) o (replicate 2 [])).2 = T ∧ rearranged T T' ∧ sharing T = 3.
  Proof.
    split; [vm_compute; reflexivity|]. split; [|vm_compute; reflexivity]. repeat constructor. cbn. change ([4; 2; 0]%N ≡ₚ [0; 2; 4]%N). solve_Permutation.
  Qed.
  Example ex_C85_run : run [3; 1; 1; 3; 1; 2] = Some [Val (Some 10); Val (Some 11); Val (Some 12); Val (Some 12); Val (Some 11); Val None]%N.
  Proof. vm_compute. reflexivity. Qed.
  Example ex_C85_short : run [3; 1; 1; 2; 1; 1] = Some [Val (Some 10); Val (Some 11); Val (Some 12); Err OutOfFuel; Val (Some 11); Err OutOfFuel]%N.
  Proof. vm_compute. reflexivity. Qed.
  Example ex_C85_fixed : map (λ c, looks_in N.eqb id T' c.1) cs = [1; 1; 1; 2; 1; 2].
  Proof. vm_compute. reflexivity. Qed.
  (** [get] of 0: three rounds, each time *)
  Example ex_C85_get : option_map (λ h, (htn_get N.eqb id 3 h 0%N, htn_get N.eqb id 2 h 0%N)) h = Some (Val (Some 10%N), Err OutOfFuel).
  Proof. vm_compute. reflexivity. Qed.
End example.
