(** * Which slots of a node array differ *)
From Verif Require Export AllocModel.

(** all slots outside [S] hold the same node (registers and value) in [a'] as in [a]; the node with index [i] is in slot [i - 1] of the array *)
Definition same_but {T} (S : list N) (a a' : alloc T) : Prop :=
  length (nodes a') = length (nodes a) ∧ ∀ j, N.of_nat j + 1 ∉ S → nodes a' !! j = nodes a !! j.
(** at most [n] slots differ *)
Definition few {T} (n : nat) (a a' : alloc T) : Prop := ∃ S, (length S ≤ n)%nat ∧ same_but S a a'.
(** the state after a call, returned or not *)
Definition after {S A} (m : M S A) (s : S) : S := match m s with Ret _ s' | Fail _ s' => s' end.
(** two buffers of the same length that differ in at most [n] bytes *)
Definition few_bytes {B} (n : nat) (b b' : list B) : Prop :=
  length b' = length b ∧ ∃ P : list nat, (length P ≤ n)%nat ∧ ∀ p, p ∉ P → b' !! p = b !! p.
