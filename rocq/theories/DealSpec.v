(** * The ways the values of a deque can lie in the slots of its node array. Nothing here refers to the models. *)
From Verif Require Export Spec.
Local Open Scope nat_scope.

(** [used]: slots and values front first; [left]: slots given back, last one first, with what is left in them; [nxt]: the lowest slot never
    used. The slots 1, …, [nxt - 1], at most [ms], are dealt out to the two lists in any way and in any order. *)
Definition dealt {T} (ms : nat) (used left : list (N * T)) (nxt : N) : Prop :=
  ∃ n, n ≤ ms ∧ nxt = (N.of_nat n + 1)%N ∧ (used ++ left).*1 ≡ₚ map N.of_nat (seq 1 n).
