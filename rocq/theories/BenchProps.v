(** * The benchmarks: C69 *)
From Verif Require Import BenchModel BenchProof.

(** [keys_to n] is [0, 1, …, n-1]. A benchmark starts from the new map; [draw] gives the values drawn in a pass (any function), [slice] is
    the shuffled vector of keys (any permutation), [iters] is how often the closure runs. *)
Section props.
  Context `{Profile} {V : Type} {HV : EqDecision V}.
  (** RedBlackTree: every insertion of every pass answers an address, and at the end the map holds the keys below [n], each with the value
      of the last pass *)
  Theorem C69_rb_insert ms (d : N * V) n (draws : list (N → V)) :
    (0 < ms)%nat → N.of_nat ms + 1 < W32 → (n ≤ ms)%nat →
    ∃ out t, bench_insert (nam_of_oapi (rb_api N.compare)) n draws (rb_new ms d) = Ret out t ∧ length out = length draws ∧
      Forall (λ pass, length pass = n ∧ Forall is_Some pass) out ∧
      ∀ draw, last draws = Some draw →
        rb_len t = N.of_nat n ∧ ∀ k, k < W128 → rb_get N.compare t k = Val (if k <? N.of_nat n then Some (draw k) else None).
  Proof using HV. intros H0 Hw Hc. apply (rb_bench ms d H0 Hw); [lia|by left]. Qed.
  (** Every look-up of every pass answers the value inserted *)
  Theorem C69_rb_lookup ms (d : N * V) n (draw : N → V) iters :
    (0 < ms)%nat → N.of_nat ms + 1 < W32 → (n ≤ ms)%nat →
    ∃ t, bench_lookup (nam_of_oapi (rb_api N.compare)) n draw iters (rb_new ms d) = Ret (replicate iters (map (λ k, Some (draw k)) (keys_to n))) t.
  Proof using HV. intros H0 Hw Hc. apply (rb_bench ms d H0 Hw). lia. Qed.
  (** The first pass removes every key and answers its value, all later passes answer [None]: they run on an empty map *)
  Theorem C69_rb_remove ms (d : N * V) n (draw : N → V) slice iters :
    (0 < ms)%nat → N.of_nat ms + 1 < W32 → (n ≤ ms)%nat → slice ≡ₚ keys_to n →
    ∃ t, bench_remove (nam_of_oapi (rb_api N.compare)) n draw slice (S iters) (rb_new ms d) =
        Ret (map (λ k, Some (draw k)) slice :: replicate iters (map (λ _, None) slice)) t ∧ rb_len t = 0.
  Proof using HV.
    intros H0 Hw Hc Hp. destruct (proj2 (proj2 (rb_bench ms d H0 Hw)) n draw slice (S iters)) as (t & He & Hl); [lia|done|].
    exists t. split; [exact He|]. apply Hl. lia.
  Qed.

  (** AVLTree: every insertion of every pass answers an address, and at the end the map holds the keys below [n], each with the value
      of the last pass *)
  Theorem C69_av_insert ms (d : N * V) n (draws : list (N → V)) :
    (0 < ms)%nat → N.of_nat ms + 1 < W32 → (n ≤ ms)%nat →
    ∃ out t, bench_insert (nam_of_oapi (av_api (λ a b, Some (N.compare a b)))) n draws (av_new ms d) = Ret out t ∧ length out = length draws ∧
      Forall (λ pass, length pass = n ∧ Forall is_Some pass) out ∧
      ∀ draw, last draws = Some draw →
        av_len t = N.of_nat n ∧ ∀ k, k < W128 → av_get (λ a b, Some (N.compare a b)) t k = Val (if k <? N.of_nat n then Some (draw k) else None).
  Proof using HV. intros H0 Hw Hc. apply (av_bench ms d H0 Hw); [lia|by left]. Qed.
  (** Every look-up of every pass answers the value inserted *)
  Theorem C69_av_lookup ms (d : N * V) n (draw : N → V) iters :
    (0 < ms)%nat → N.of_nat ms + 1 < W32 → (n ≤ ms)%nat →
    ∃ t, bench_lookup (nam_of_oapi (av_api (λ a b, Some (N.compare a b)))) n draw iters (av_new ms d) = Ret (replicate iters (map (λ k, Some (draw k)) (keys_to n))) t.
  Proof using HV. intros H0 Hw Hc. apply (av_bench ms d H0 Hw). lia. Qed.
  (** The first pass removes every key and answers its value, all later passes answer [None]: they run on an empty map *)
  Theorem C69_av_remove ms (d : N * V) n (draw : N → V) slice iters :
    (0 < ms)%nat → N.of_nat ms + 1 < W32 → (n ≤ ms)%nat → slice ≡ₚ keys_to n →
    ∃ t, bench_remove (nam_of_oapi (av_api (λ a b, Some (N.compare a b)))) n draw slice (S iters) (av_new ms d) =
        Ret (map (λ k, Some (draw k)) slice :: replicate iters (map (λ _, None) slice)) t ∧ av_len t = 0.
  Proof using HV.
    intros H0 Hw Hc Hp. destruct (proj2 (proj2 (av_bench ms d H0 Hw)) n draw slice (S iters)) as (t & He & Hl); [lia|done|].
    exists t. split; [exact He|]. apply Hl. lia.
  Qed.

  (** HashTable: every insertion of every pass answers an address, and at the end the map holds the keys below [n], each with the value
      of the last pass *)
  Theorem C69_ht_insert (hash : N → N) nb ms (d : N * V) h0 n (draws : list (N → V)) :
    (0 < nb)%nat → N.of_nat ms + 1 < W32 → ht_new nb ms d = Some h0 → (n ≤ ms)%nat →
    ∃ out t, bench_insert (ht_nam N.eqb hash) n draws h0 = Ret out t ∧ length out = length draws ∧
      Forall (λ pass, length pass = n ∧ Forall is_Some pass) out ∧
      ∀ draw, last draws = Some draw →
        ht_len t = N.of_nat n ∧ ∀ k, k < W128 → ht_get N.eqb hash t k = Val (if k <? N.of_nat n then Some (draw k) else None).
  Proof using HV. intros H0 Hw Hn Hc. apply (ht_bench hash nb ms d h0 H0 Hw Hn); [lia|by left]. Qed.
  (** Every look-up of every pass answers the value inserted *)
  Theorem C69_ht_lookup (hash : N → N) nb ms (d : N * V) h0 n (draw : N → V) iters :
    (0 < nb)%nat → N.of_nat ms + 1 < W32 → ht_new nb ms d = Some h0 → (n ≤ ms)%nat →
    ∃ t, bench_lookup (ht_nam N.eqb hash) n draw iters h0 = Ret (replicate iters (map (λ k, Some (draw k)) (keys_to n))) t.
  Proof using HV. intros H0 Hw Hn Hc. apply (ht_bench hash nb ms d h0 H0 Hw Hn). lia. Qed.
  (** The first pass removes every key and answers its value, all later passes answer [None]: they run on an empty map *)
  Theorem C69_ht_remove (hash : N → N) nb ms (d : N * V) h0 n (draw : N → V) slice iters :
    (0 < nb)%nat → N.of_nat ms + 1 < W32 → ht_new nb ms d = Some h0 → (n ≤ ms)%nat → slice ≡ₚ keys_to n →
    ∃ t, bench_remove (ht_nam N.eqb hash) n draw slice (S iters) h0 =
        Ret (map (λ k, Some (draw k)) slice :: replicate iters (map (λ _, None) slice)) t ∧ ht_len t = 0.
  Proof using HV.
    intros H0 Hw Hn Hc Hp. destruct (proj2 (proj2 (ht_bench hash nb ms d h0 H0 Hw Hn)) n draw slice (S iters)) as (t & He & Hl); [lia|done|].
    exists t. split; [exact He|]. apply Hl. lia.
  Qed.

  (** Critbit: every insertion of every pass answers an address, and at the end the map holds the keys below [n], each with the value
      of the last pass, with room left: an insertion of a key already there is refused by a full tree, C35 *)
  Theorem C69_cb_insert nn ms (d : V) t0 n (draws : list (N → V)) :
    (0 < ms)%nat → N.of_nat nn + 1 < W32 → cb_new nn ms d = Some t0 → N.of_nat ms < W128 → (n < ms)%nat →
    ∃ out t, bench_insert (nam_of_oapi cb_api) n draws t0 = Ret out t ∧ length out = length draws ∧
      Forall (λ pass, length pass = n ∧ Forall is_Some pass) out ∧
      ∀ draw, last draws = Some draw →
        cb_len t = N.of_nat n ∧ ∀ k, k < W128 → cb_get t k = Val (if k <? N.of_nat n then Some (draw k) else None).
  Proof using HV. intros H0 Hw Hn Hm Hc. apply (cb_bench nn ms d t0 H0 Hw Hn Hm); [lia|right; lia]. Qed.
  (** Every look-up of every pass answers the value inserted *)
  Theorem C69_cb_lookup nn ms (d : V) t0 n (draw : N → V) iters :
    (0 < ms)%nat → N.of_nat nn + 1 < W32 → cb_new nn ms d = Some t0 → N.of_nat ms < W128 → (n ≤ ms)%nat →
    ∃ t, bench_lookup (nam_of_oapi cb_api) n draw iters t0 = Ret (replicate iters (map (λ k, Some (draw k)) (keys_to n))) t.
  Proof using HV. intros H0 Hw Hn Hm Hc. apply (cb_bench nn ms d t0 H0 Hw Hn Hm). lia. Qed.
  (** The first pass removes every key and answers its value, all later passes answer [None]: they run on an empty map *)
  Theorem C69_cb_remove nn ms (d : V) t0 n (draw : N → V) slice iters :
    (0 < ms)%nat → N.of_nat nn + 1 < W32 → cb_new nn ms d = Some t0 → N.of_nat ms < W128 → (n ≤ ms)%nat → slice ≡ₚ keys_to n →
    ∃ t, bench_remove (nam_of_oapi cb_api) n draw slice (S iters) t0 =
        Ret (map (λ k, Some (draw k)) slice :: replicate iters (map (λ _, None) slice)) t ∧ cb_len t = 0.
  Proof using HV.
    intros H0 Hw Hn Hm Hc Hp. destruct (proj2 (proj2 (cb_bench nn ms d t0 H0 Hw Hn Hm)) n draw slice (S iters)) as (t & He & Hl); [lia|done|].
    exists t. split; [exact He|]. apply Hl. lia.
  Qed.

End props.
Print Assumptions C69_rb_insert.
Print Assumptions C69_rb_lookup.
Print Assumptions C69_rb_remove.
Print Assumptions C69_av_insert.
Print Assumptions C69_av_lookup.
Print Assumptions C69_av_remove.
Print Assumptions C69_ht_insert.
Print Assumptions C69_ht_lookup.
Print Assumptions C69_ht_remove.
Print Assumptions C69_cb_insert.
Print Assumptions C69_cb_lookup.
Print Assumptions C69_cb_remove.

(** ** Concrete cases *)
Local Instance ex_profile : Profile := {| overflow_checks := true |}.
(** The constants of the file, bench.rs:16-34: the benchmarks stay inside the capacities *)
Example ex_C69_rb_20000 (d : N * N) (draws : list (N → N)) :
  ∃ out t, bench_insert (nam_of_oapi (rb_api N.compare)) (N.to_nat 20000) draws (rb_new (N.to_nat 20001) d) = Ret out t.
Proof. edestruct (C69_rb_insert (N.to_nat 20001) d (N.to_nat 20000) draws) as (out & t & He & _); [lia|unfold W32; lia|lia|]. eauto. Qed.
Example ex_C69_cb_1000 (d : N) (draws : list (N → N)) t0 : cb_new (N.to_nat 2003) (N.to_nat 1001) d = Some t0 →
  ∃ out t, bench_insert (nam_of_oapi cb_api) (N.to_nat 1000) draws t0 = Ret out t.
Proof.
  intros Hn. edestruct (C69_cb_insert (N.to_nat 2003) (N.to_nat 1001) d t0 (N.to_nat 1000) draws) as (out & t & He & _);
    [lia|unfold W32; lia|done|unfold W128; lia|lia|]. eauto.
Qed.
(** Five keys, three passes of insertions *)
Definition ex_draws : list (N → N) := [λ k, 10 * k; λ k, 20 * k; λ k, 30 * k + 1].
Definition answers {S A} (o : outcome S A) : option A := match o with Ret a _ => Some a | Fail _ _ => None end.
Example ex_C69_rb_insert : answers (bench_insert (nam_of_oapi (rb_api N.compare)) 5 ex_draws (rb_new 6 (0, 0))) =
  Some (replicate 3 (map Some [1; 2; 3; 4; 5])).
Proof. by vm_compute. Qed.
Example ex_C69_av_lookup : answers (bench_lookup (nam_of_oapi (av_api (λ a b, Some (N.compare a b)))) 5 (λ k, 10 * k) 2 (av_new 5 (0, 0))) =
  Some (replicate 2 (map Some [0; 10; 20; 30; 40])).
Proof. by vm_compute. Qed.
Example ex_C69_ht_remove : ∃ h0, ht_new 2 6 (0, 0) = Some h0 ∧ [3; 0; 4; 2; 1] ≡ₚ keys_to 5 ∧
  answers (bench_remove (ht_nam N.eqb (λ k, k)) 5 (λ k, 10 * k) [3; 0; 4; 2; 1] 3 h0) =
  Some [map Some [30; 0; 40; 20; 10]; replicate 5 None; replicate 5 None].
Proof. eexists. split; [reflexivity|]. split; [unfold keys_to; cbn [seq map]; change [0;1;2;3;4] with ([0] ++ [1;2;3;4]); solve_Permutation|by vm_compute]. Qed.
Example ex_C69_cb_remove : ∃ t0, cb_new 12 6 0 = Some t0 ∧
  answers (bench_remove (nam_of_oapi cb_api) 5 (λ k, 10 * k) [3; 0; 4; 2; 1] 2 t0) = Some [map Some [30; 0; 40; 20; 10]; replicate 5 None].
Proof. eexists. split; [reflexivity|]. by vm_compute. Qed.
(** Critbit filled to the brim: the second pass is refused (the reason for [n < ms] above) *)
Example ex_C69_cb_full : ∃ t0 a, cb_new 12 5 0 = Some t0 ∧
  answers (bench_insert (nam_of_oapi cb_api) 5 (take 2 ex_draws) t0) = Some [a; replicate 5 None] ∧ Forall is_Some a.
Proof. do 2 eexists. split; [reflexivity|]. split; [by vm_compute|]. repeat constructor; by eauto. Qed.
