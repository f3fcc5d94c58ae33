(** * C97: the contents and sequence numbers a Deque can have *)
From Verif Require Import IterProof DequeApi DequeProof SightSpec SightMain.

(** The iterators show the values [l] (in every interleaving of next and next_back) and the field [sequence_number] is [s] after some calls
    on a new Deque exactly if: [l] has at most MAX_SIZE values, [s] is below 2^64 and as even or odd as the length of [l], not smaller than it
    with overflow checks, and 0 if MAX_SIZE is 0. (With overflow checks only fewer than 2^64 calls are considered.) *)
Theorem C97_dq_sights `{Profile} {T : Type} (ms : nat) (v : T) (l : list T) (s : N) :
  N.of_nat ms + 1 < W32 →
  (∃ ops : list (dq_op T), (overflow_checks = true → lengthN ops < W64) ∧
     let d := (history dq_step ops (dq_new ms v)).2 in
     (∃ es, es.*2 = l ∧ ∀ script, dq_iterate script d = Val (de_spec script es)) ∧ dq_seqno d = s) ↔ seen ms l s.
Proof. intros Hw. exact (seen_fact ms v Hw l s). Qed.
Print Assumptions C97_dq_sights.

(** So the sequence number tells whether the number of values is even, after any calls. *)
Theorem C97_dq_parity `{Profile} {T : Type} (ms : nat) (v : T) (ops : list (dq_op T)) :
  N.of_nat ms + 1 < W32 → (overflow_checks = true → lengthN ops < W64) →
  let d := (history dq_step ops (dq_new ms v)).2 in N.even (dq_seqno d) = N.even (dq_len d).
Proof. intros Hw Hf. exact (parity_fact ms v Hw ops Hf). Qed.
Print Assumptions C97_dq_parity.

(** Capacity 2: [7] with the sequence number 5 is possible, with 4 it is not; [7; 8] with 0 is possible only without overflow checks. *)
Section example.
  Let o : list (dq_op N) := [DPushBack 1; DPopBack; DPushFront 2; DPopFront; DPushBack 7].
  Let pc : Profile := {| overflow_checks := true |}.
  Let pr : Profile := {| overflow_checks := false |}.
  Example ex_C97_seen : @seen pc _ 2 [7] 5 ∧ ¬ @seen pc _ 2 [7] 4 ∧ @seen pr _ 2 [7; 8] 0 ∧ ¬ @seen pc _ 2 [7; 8] 0 ∧ ¬ @seen pr _ 2 [7; 8; 9] 3.
  Proof.
    split_and!.
    - repeat split; cbn; (done || lia).
    - intros (_ & _ & Hp & _). done.
    - repeat split; cbn; (done || lia).
    - intros (_ & _ & _ & Hc & _). specialize (Hc eq_refl). cbn in Hc. lia.
    - intros (Hl & _). cbn in Hl. lia.
  Qed.
  Example ex_C97_calls : let d := (@history _ _ _ (@dq_step pc _) o (dq_new 2 0)).2 in
    @dq_iterate pc _ [Fwd; Fwd] d = Val [Some (1, 7); None] ∧ dq_seqno d = 5 ∧ dq_len d = 1.
  Proof. vm_compute. done. Qed.
End example.
