(** * C96: in which slots the values of a Deque can lie *)
From Verif Require Import IterProof DealSpec SlotSpec SlotDeque DealMain.
Local Open Scope nat_scope.

(** [dslots_after cap o] (SlotSpec.v) is, by C61, which slot of the node array holds which value after the calls [o], which slots have been
    given back in which order and what is left in them, and which have never been used. *)

(** These can be dealt out in any way: each slot below the lowest never used is in the sequence or given back, in any order, with any
    value, and nothing else is possible. *)
Theorem C96_dq_layouts {T : Type} (ms : nat) (used left : list (N * T)) (nxt : N) :
  (∃ o, dslots_after (N.of_nat ms) o = DSlots used left nxt) ↔ dealt ms used left nxt.
Proof. exact (dealt_fact ms used left nxt). Qed.
Print Assumptions C96_dq_layouts.

(** The same of the memory itself: for every way to deal out the slots, calls, at most [8 ms² + 2 ms] of them, that leave the Deque with
    these links, values and free list. (With overflow checks the calls must be too few for the sequence number to overflow.) *)
Theorem C96_dq_memories `{Profile} {T : Type} (ms : nat) (v0 : T) (used left : list (N * T)) (nxt : N) :
  (N.of_nat ms + 1 < W32)%N → (overflow_checks = true → 8 * N.of_nat ms * N.of_nat ms + 2 * N.of_nat ms < W64)%N → dealt ms used left nxt →
  ∃ o, length o ≤ 8 * ms * ms + 2 * ms ∧
    let d := (history dq_step o (dq_new ms v0)).2 in
    dq_head d = top_of SENTINEL used ∧ dq_tail d = top_of SENTINEL (reverse used) ∧
    (∀ pre i v post, used = pre ++ (i, v) :: post →
       na_get (dq_al d) i = Val (Node [top_of SENTINEL (reverse pre); top_of SENTINEL post] v)) ∧
    unused (dq_al d) 2 v0 left nxt.
Proof.
  intros Hw Ho Hd. destruct (dealt_reached ms used left nxt Hd) as (o & Hrun & Hlen). exists o. split; [done|].
  destruct (dq_follow ms v0 Hw o) as (H1 & H2 & H3 & H4); [intros Hc; specialize (Ho Hc); unfold lengthN; lia|].
  unfold dslots_after in *. unfold run in Hrun. rewrite Hrun in *. done.
Qed.
Print Assumptions C96_dq_memories.

(** Capacity 4: the values 30 and 10 in the slots 3 and 1, slot 2 given back with 20 in it, slot 4 never used. *)
Section example.
  Local Instance ex_profile : Profile := {| overflow_checks := true |}.
  Let o : list (dq_op N) := [DPushBack 10; DPushBack 20; DPushBack 30; DPopFront; DPushBack 10; DPopFront; DPushBack 20; DPopBack]%N.
  Example ex_C96_dealt : dealt 4 [(3, 30); (1, 10)]%N [(2, 20)]%N 4%N.
  Proof. exists 3. split; [lia|]. split; [done|]. change ([3; 1; 2]%N ≡ₚ [1; 2; 3]%N). solve_Permutation. Qed.
  Example ex_C96_not : ¬ dealt 4 [(3, 30); (1, 10)]%N [(3, 20)]%N 4%N ∧ ¬ dealt 2 [(3, 30); (1, 10)]%N [(2, 20)]%N 4%N.
  Proof.
    split.
    - intros (n & _ & Hn & Hp). assert (n = 3) as -> by lia. assert (2%N ∈ [3; 1; 3]%N) as Hin by (change ([3; 1; 3]%N ≡ₚ [1; 2; 3]%N) in Hp; rewrite Hp; set_solver).
      set_solver.
    - intros (n & Hle & Hn & _). lia.
  Qed.
  Example ex_C96_calls : dslots_after 4 o = DSlots [(3, 30); (1, 10)]%N [(2, 20)]%N 4%N.
  Proof. vm_compute. reflexivity. Qed.
  Example ex_C96_memory : let d := (history dq_step o (dq_new 4 0%N)).2 in
    (dq_head d, dq_tail d) = (3, 1)%N ∧ map (na_get (dq_al d)) [1; 2; 3; 4]%N =
      [Val (Node [3; 0] 10); Val (Node [4; 0] 20); Val (Node [0; 1] 30); Val (Node [0; 0] 0)]%N.
  Proof. vm_compute. done. Qed.
End example.
