(** * The lists a hash table with chaining can give when iterated. Nothing here refers to the models. *)
From Verif Require Export HashSpec.
Local Open Scope nat_scope.

(** At most [ms] pairs, no two with equal keys, one bucket after the other *)
Definition arranged {K V} (keq : K → K → bool) (hash : K → N) (nb ms : nat) (l : list (K * V)) : Prop :=
  length l ≤ ms ∧ distinct_keys keq l ∧
  ForallOrdPairs (λ x y, hash x.1 mod N.of_nat nb ≤ hash y.1 mod N.of_nat nb)%N l.
