(** * What one can see of a deque: its contents and its sequence number. Nothing here refers to the models. *)
From Verif Require Export Prelude Spec.

(** At most [ms] values; the sequence number, below 2^64, is even if their number is and odd if it is odd; it is no less than their number
    if arithmetic is checked; and 0 if nothing can ever be put in. *)
Definition seen `{Profile} {T} (ms : nat) (l : list T) (s : N) : Prop :=
  (length l ≤ ms)%nat ∧ s < W64 ∧ N.even s = Nat.even (length l) ∧ (overflow_checks = true → N.of_nat (length l) ≤ s) ∧ (ms = 0%nat → s = 0).
