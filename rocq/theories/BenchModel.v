(** * Model of the benchmarks (benches/bench.rs)

    Each benchmark builds a map with [new] or [new_from_slice] (in the theorems; the two agree by C43), and calls [insert], [get], [remove]
    through the trait NodeAllocatorMap or the inherent methods, which are the same functions. The benchmarks throw every answer away; the
    model collects the answers so that the theorems can speak of them.
    Simplified: the values [rng.gen::<u128>()] are any function of the key, one per pass; [slice.shuffle] is any list that the theorems
    assume to be a permutation; [b.iter] runs its closure any number of times. *)
From Verif Require Export FuzzModel.

Section bench.
  Context {S V : Type} (api : nam S N V).
  (** [for x in xs { f(x); }] *)
  Fixpoint for_each {A B} (xs : list A) (f : A → M S B) : M S (list B) :=
    match xs with
    | [] => mret []
    | x :: xs => b ← f x; bs ← for_each xs f; mret (b :: bs)
    end.
  (** [0..n] as [u128], bench.rs:59 and elsewhere *)
  Definition keys_to (n : nat) : list N := map N.of_nat (seq 0 n).
  (** benches/bench.rs:59-61, 70-72, 81-83, 92-94 and the other passes of insertions: [for v in 0..n { m.insert(v, rng.gen()) }] *)
  Definition bench_fill (n : nat) (draw : N → V) : M S (list (option N)) := for_each (keys_to n) (λ v, n_insert api v (draw v)).
  (** benches/bench.rs:54-221 [bench_sokoban_*_insert_*]: the closure is one pass; [draws] has the values of each time it runs *)
  Definition bench_insert (n : nat) (draws : list (N → V)) : M S (list (list (option N))) := for_each draws (bench_fill n).
  (** benches/bench.rs:250-315 [bench_sokoban_*_remove_1000_u128]: fill once, then the closure removes the keys in the order of [slice] *)
  Definition bench_remove (n : nat) (draw : N → V) (slice : list N) (iters : nat) : M S (list (list (option V))) :=
    bench_fill n draw;; for_each (seq 0 iters) (λ _, for_each slice (n_remove api)).
  (** benches/bench.rs:347-404 [bench_sokoban_*_lookup_20000_u128]: fill once, then the closure looks every key up *)
  Definition bench_lookup (n : nat) (draw : N → V) (iters : nat) : M S (list (list (option V))) :=
    bench_fill n draw;; for_each (seq 0 iters) (λ _, for_each (keys_to n) (λ v, gets (λ s, n_get api s v))).
End bench.
