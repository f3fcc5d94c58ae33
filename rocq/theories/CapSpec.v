(** * How many nodes an allocator can really hand out

    [add_node] compares [bump_index] with [(MAX_SIZE + 1) as u32] (node_allocator.rs:268) and then adds 1 to it in u32. *)
From Verif Require Export Prelude.

(** the number of nodes that a fresh allocator with MAX_SIZE = [ms] hands out before it panics *)
Definition room `{Profile} (ms : N) : N :=
  let b := (ms + 1) mod 4294967296 in
  if decide (b = 0) then (if overflow_checks then 4294967294 else 4294967295) else b - 1.
(** [from i n] = i, i + 1, …, [n] numbers *)
Fixpoint from (i : N) (n : nat) : list N := match n with O => [] | S n => i :: from (i + 1) n end.
