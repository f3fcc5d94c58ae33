(** * C95: the contents and orders the HashTable can have are exactly those arranged by buckets *)
From Verif Require Import OrderProof CostHt MtfProof BenchProof ArrangeSpec ArrangeMain.
Local Open Scope nat_scope.

(** [h0] is [HashTable::<K, V, nb, ms>::new()], [after o] the table after the calls [o]. That a table gives [l] when iterated is said with
    any script of [next] and [next_back] ([fw_spec], HashSpec.v: [next_back] gives nothing, C16). [arranged] is in ArrangeSpec.v. *)
Section props.
  Context `{Profile} {K V : Type} (keq : K → K → bool) (hash : K → N) (HL : HashLaws keq hash) (nb ms : nat) (d : K * V).
  Context (h0 : htable K V) (Hnew : ht_new nb ms d = Some h0) (Hnb : 0 < nb) (Hw : (N.of_nat ms + 1 < W32)%N).
  Notation after o := (history (ht_step keq hash) o h0).2.

  (** A list of pairs is what some reachable table gives when iterated if and only if it has at most [ms] pairs, their keys are different
      and the buckets of the keys ascend. *)
  Theorem C95_ht_reachable (l : list (K * V)) :
    (∃ o, ∀ script, ht_iterate (after o) script = Val (fw_spec script l)) ↔ arranged keq hash nb ms l.
  Proof. exact (arranged_fact keq hash HL nb ms d h0 Hnew Hnb Hw l). Qed.

  (** Lookups alone get from any order of the pairs of a table to any other: if [l'] has the pairs the table has and is arranged, calls of
      [get_mut] whose callers do not touch the values make [l'] of it. *)
  Theorem C95_ht_get_mut_orders (o : list (hm_op K V)) (l l' : list (K * V)) :
    (∀ script, ht_iterate (after o) script = Val (fw_spec script l)) → arranged keq hash nb ms l' → l' ≡ₚ l →
    ∃ ks, ∀ script, ht_iterate (after (o ++ map (λ k, HGetMut k (λ v, v)) ks)) script = Val (fw_spec script l').
  Proof. exact (get_mut_fact keq hash HL nb ms d h0 Hnew Hnb Hw o l l'). Qed.
End props.
Print Assumptions C95_ht_reachable.
Print Assumptions C95_ht_get_mut_orders.

(** Two buckets, capacity 4, the hash the identity *)
Section example.
  Local Instance ex_profile : Profile := {| overflow_checks := true |}.
  Let l : list (N * N) := [(4, 14); (0, 10); (2, 12); (1, 11)]%N.
  Let l' : list (N * N) := [(0, 10); (2, 12); (4, 14); (1, 11)]%N.
  Let it (o : list (hm_op N N)) : option (res (list (option (N * N)))) :=
    option_map (λ h0, ht_iterate (history (ht_step N.eqb id) o h0).2 (replicate 5 Fwd)) (ht_new 2 4 (0, 0)%N).
  Let o : list (hm_op N N) := [HInsert 1 11; HInsert 2 12; HInsert 0 10; HInsert 4 14]%N.
  Example ex_C95_arranged : arranged N.eqb id 2 4 l ∧ arranged N.eqb id 2 4 l' ∧ l' ≡ₚ l.
  Proof.
    split; [|split]; [split; [cbn; lia|split; repeat constructor; done]..|]. change ([(0, 10); (2, 12); (4, 14); (1, 11)]%N ≡ₚ [(4, 14); (0, 10); (2, 12); (1, 11)]%N). solve_Permutation.
  Qed.
  Example ex_C95_reached : it o = Some (Val (map Some l ++ [None])).
  Proof. vm_compute. reflexivity. Qed.
  Example ex_C95_moved : it (o ++ map (λ k, HGetMut k (λ v, v)) [2; 0]%N) = Some (Val (map Some l' ++ [None])).
  Proof. vm_compute. reflexivity. Qed.
  (** 1 before 0 is not arranged, and no calls give it *)
  Example ex_C95_not : ¬ arranged N.eqb id 2 4 [(1, 11); (0, 10)]%N.
  Proof. intros (_ & _ & Hs). inversion Hs as [|? ? Hx _]; subst. inversion Hx as [|? ? H0 _]; subst. by vm_compute in H0. Qed.
End example.
