(** * C64: the unit tests of deque.rs and red_black_tree.rs, for all inputs

    The programs are those of UnitModel.v. [test_deque] draws its values and breakpoints from any random number generator; the deletion
    tests take any keys in place of the hashes of 0, 1, 2, ... *)
From Verif Require Import MapProof UnitModel UnitProof TestProof.

Section deque.
  Context `{Profile} {T : Type} `{EqDecision T} (r_t : N → T) (r_n : N → N) (n ms : nat) (d : T).
  Context (Hn : (2 ≤ n)%nat) (Hw : N.of_nat ms + 1 < W32).
  Notation run := (test_deque r_t r_n n (test_deque_start (dq_new ms d))).
  (** The test never fails when the capacity is at least the number of elements it pushes (the source: n = 128 and capacity 1024) *)
  Theorem C64_dq_test : (n + n ≤ ms)%nat → ∃ st, run = Ret () st ∧ dq_len (t_q st) = 0.
  Proof using Hn Hw. intros Hms. exact (test_deque_ok r_t r_n n ms d Hn Hms Hw). Qed.
  (** and always when it is not *)
  Theorem C64_dq_test_small : (ms < n + n)%nat → ∃ st, run = Fail Panic st.
  Proof using Hw. intros Hms. exact (test_deque_small r_t r_n n ms d Hms Hw). Qed.
  (** With one element pushed at each end there is no breakpoint to draw, and it panics as well. *)
  Theorem C64_dq_test_tiny : (2 ≤ ms)%nat → ∃ st, test_deque r_t r_n 1 (test_deque_start (dq_new ms d)) = Fail Panic st.
  Proof using Hw. intros Hms. exact (test_deque_tiny r_t r_n ms d Hms Hw). Qed.
End deque.
Print Assumptions C64_dq_test.
Print Assumptions C64_dq_test_small.
Print Assumptions C64_dq_test_tiny.

Section delete.
  Context `{Profile} {K V : Type} (cmp : K → K → comparison) (HO : OrdLaws cmp) (ms : nat) (d : K * V) (d' : N * V) (z : V) (keys : list K).
  Context (H0 : (0 < ms)%nat) (Hw : N.of_nat ms + 1 < W32).
  (** No two of the keys are equal, and there are no more of them than the tree has room for *)
  Definition good : Prop := (∀ i j a b, keys !! i = Some a → keys !! j = Some b → cmp a b = Eq → i = j) ∧ (length keys ≤ ms)%nat.
  (** The tests pass exactly then, and leave the tree empty; otherwise they panic, which is how they report a failure. Nothing else (no
      undefined behaviour, no endless loop) can happen. *)
  Theorem C64_rb_delete :
    match test_delete (rb_drain cmp) z keys (rb_new ms d) with Ret _ t => good ∧ rb_len t = 0 | Fail e _ => e = Panic ∧ ¬ good end.
  Proof using HO H0 Hw. exact (test_delete_ok cmp HO ms d z H0 Hw keys). Qed.
  Theorem C64_rb_delete_1024 :
    match test_delete_1024 (rb_drain cmp) z keys (rb_new ms d) with Ret _ t => good ∧ rb_len t = 0 | Fail e _ => e = Panic ∧ ¬ good end.
  Proof using HO H0 Hw. exact (test_delete_1024_ok cmp HO ms d z H0 Hw keys). Qed.
  Theorem C64_rb_delete_2048 :
    match test_delete_2048 (rb_drain cmp) (rb_drain N.compare) cmp z keys (rb_new ms d, rb_new ms d') with Ret _ t => good ∧ rb_len t.2 = 0 | Fail e _ => e = Panic ∧ ¬ good end.
  Proof using HO H0 Hw. exact (test_delete_2048_ok cmp HO ms d d' z H0 Hw keys). Qed.
End delete.
Print Assumptions C64_rb_delete.
Print Assumptions C64_rb_delete_1024.
Print Assumptions C64_rb_delete_2048.

(** *** Examples *)
Local Instance ex_profile : Profile := {| overflow_checks := true |}.
Definition ex_t (n : N) : N := (n * 48271 + 7) mod 65537.
Definition ex_n (n : N) : N := n * 2654435761 mod 4294967291.
Definition fine {S A} (o : outcome S A) : option err := match o with Ret _ _ => None | Fail e _ => Some e end.
Example ex_C64_dq :
  (2 ≤ 4)%nat ∧ (4 + 4 ≤ 9)%nat ∧ N.of_nat 9 + 1 < W32 ∧ fine (test_deque ex_t ex_n 4 (test_deque_start (dq_new 9 0))) = None ∧
  (7 < 4 + 4)%nat ∧ fine (test_deque ex_t ex_n 4 (test_deque_start (dq_new 7 0))) = Some Panic.
Proof. split_and!; [lia|lia|by vm_compute|by vm_compute|lia|by vm_compute]. Qed.
(** Keys 30 and 11 are inserted, the index of the second 30 would be removed twice *)
Example ex_C64_rb :
  OrdLaws N.compare ∧ N.of_nat 8 + 1 < W32 ∧
  good N.compare 8 [30; 11; 52; 7; 93; 61; 45; 2] ∧
  fine (test_delete (rb_drain N.compare) 0 [30; 11; 52; 7; 93; 61; 45; 2] (rb_new 8 (0, 0))) = None ∧
  fine (test_delete_1024 (rb_drain N.compare) 0 [30; 11; 52; 7; 93; 61; 45; 2] (rb_new 8 (0, 0))) = None ∧
  fine (test_delete_2048 (rb_drain N.compare) (rb_drain N.compare) N.compare 0 [30; 11; 52; 7; 93; 61; 45; 2] (rb_new 8 (0, 0), rb_new 8 (0, 0))) = None ∧
  ¬ good N.compare 8 [30; 11; 30] ∧
  fine (test_delete (rb_drain N.compare) 0 [30; 11; 30] (rb_new 8 (0, 0))) = Some Panic ∧
  fine (test_delete_1024 (rb_drain N.compare) 0 [30; 11; 30] (rb_new 8 (0, 0))) = Some Panic ∧
  fine (test_delete_2048 (rb_drain N.compare) (rb_drain N.compare) N.compare 0 [30; 11; 30] (rb_new 8 (0, 0), rb_new 8 (0, 0))) = Some Panic ∧
  ¬ good N.compare 2 [30; 11; 40] ∧
  fine (test_delete (rb_drain N.compare) 0 [30; 11; 40] (rb_new 2 (0, 0))) = Some Panic.
Proof.
  split_and!; [exact N_laws|by vm_compute| |by vm_compute|by vm_compute|by vm_compute| |by vm_compute|by vm_compute|by vm_compute| |by vm_compute].
  - split; [|cbn; lia]. intros i j a b Ha Hb E. apply N.compare_eq_iff in E as ->.
    apply (NoDup_lookup [30; 11; 52; 7; 93; 61; 45; 2] i j b); [|done|done]. apply (bool_decide_eq_true_1 (NoDup _)). by vm_compute.
  - intros [Hd _]. by specialize (Hd 0%nat 2%nat 30 30 eq_refl eq_refl eq_refl).
  - intros [_ Hl]. cbn in Hl. lia.
Qed.
