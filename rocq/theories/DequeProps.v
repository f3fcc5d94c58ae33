(** * Properties C07-C12: the Deque *)
From Verif Require Import IterProof DequeApi DequeProof.

Section props.
  Context `{Profile} {T : Type}.

  (** The deque after a history of calls on [Deque::<T, ms>::new()], and what the specification [dq_spec] (a plain list and a
      counter) says about the same history. *)
  Definition dq_after (ms : nat) (v : T) (ops : list (dq_op T)) : deque T := (history dq_step ops (dq_new ms v)).2.
  Definition contents (ms : nat) (ops : list (dq_op T)) : list T :=
    (spec_history (dq_spec (N.of_nat ms)) ops ([], 0)).2.1.
  Definition mutations (ms : nat) (ops : list (dq_op T)) : N :=
    (spec_history (dq_spec (N.of_nat ms)) ops ([], 0)).2.2.
  (** With overflow checks on, fewer than 2^64 calls (else the sequence number overflows). *)
  Definition few (ops : list (dq_op T)) : Prop := overflow_checks = true → lengthN ops < W64.

  (** C07: every answer of every call in every history is that of the bounded sequence. In particular no call panics except a
      push onto a full deque, and none runs out of fuel. *)
  Theorem C07_deque_is_sequence ms (v : T) ops :
    N.of_nat ms + 1 < W32 → few ops →
    (history dq_step ops (dq_new ms v)).1 = (spec_history (dq_spec (N.of_nat ms)) ops ([], 0)).1.
  Proof. intros Hw Hf. exact (proj1 (dq_history_ok ms v ops Hw Hf)). Qed.

  (** C08 *)
  Theorem C08_push_full ms (v : T) ops x :
    N.of_nat ms + 1 < W32 → few ops →
    let d := dq_after ms v ops in
    dq_len d ≤ N.of_nat ms ∧
    (dq_len d = N.of_nat ms → dq_push_back x d = Fail Panic d ∧ dq_push_front x d = Fail Panic d).
  Proof.
    intros Hw Hf. destruct (dq_history_ok ms v ops Hw Hf) as [_ (_ & es & Ho & He)].
    cbn zeta. unfold dq_after. rewrite (DOK_len _ _ _ Ho). split.
    - destruct Ho as [Hh _ _]. apply CH_len_le in Hh. by rewrite dseg_length in Hh.
    - intros Hlen. by eapply push_full.
  Qed.
  Theorem C08_push_room ms (v : T) ops x :
    N.of_nat ms + 1 < W32 → few (ops ++ [DPushBack x]) →
    let d := dq_after ms v ops in
    dq_len d < N.of_nat ms →
    (∃ d', dq_push_back x d = Ret () d' ∧ dq_len d' = dq_len d + 1) ∧
    (∃ d', dq_push_front x d = Ret () d' ∧ dq_len d' = dq_len d + 1).
  Proof. exact (push_room ms v ops x). Qed.

  (** C09: [es] lists the elements front to back with the slot each is stored in; any interleaving of next and next_back answers as
      [de_spec] says. *)
  Theorem C09_deque_iter ms (v : T) ops :
    N.of_nat ms + 1 < W32 → few ops →
    let d := dq_after ms v ops in
    ∃ es : list (N * T), es.*2 = contents ms ops ∧ NoDup es.*1 ∧
      (∀ i x, (i, x) ∈ es → dq_get_node d i = Val x) ∧
      ∀ script, dq_iterate script d = Val (de_spec script es).
  Proof. exact (iter_entries ms v ops). Qed.

  (** C10: iter_mut. [es] as above. The answers are those of iter; the references (slots) are pairwise distinct; afterwards the
      deque holds exactly the elements with the caller's functions applied to the yielded ones, in the same slots and order; the
      sequence number is unchanged. *)
  Theorem C10_deque_iter_mut ms (v : T) ops script :
    N.of_nat ms + 1 < W32 → few ops →
    let d := dq_after ms v ops in
    ∃ (es : list (N * T)) d',
      es.*2 = contents ms ops ∧ NoDup es.*1 ∧
      let '(out, es') := de_mut_spec (λ f e, (e.1, f e.2)) script es in
      dq_iterate_mut script d = Ret out d' ∧
      NoDup (map fst (omap id out)) ∧ es'.*1 = es.*1 ∧
      dq_seqno d' = dq_seqno d ∧ dq_len d' = dq_len d ∧
      ∀ script', dq_iterate script' d' = Val (de_spec script' es').
  Proof. intros Hw Hf. exact (iter_mut_entries ms v ops Hw Hf script). Qed.

  (** C11 *)
  Theorem C11_sequence_number ms (v : T) ops :
    N.of_nat ms + 1 < W32 → few ops → dq_seqno (dq_after ms v ops) = mutations ms ops mod W64.
  Proof. intros Hw Hf. exact (proj1 (proj2 (dq_history_ok ms v ops Hw Hf))). Qed.

  (** C12: [is] are the slots front to back. *)
  Theorem C12_links ms (v : T) ops :
    N.of_nat ms + 1 < W32 → few ops →
    let d := dq_after ms v ops in
    ∃ is : list N,
      NoDup is ∧ SENTINEL ∉ is ∧ length is = length (contents ms ops) ∧
      dq_head d = default SENTINEL (head is) ∧ dq_tail d = default SENTINEL (last is) ∧
      ∀ k i, is !! k = Some i →
        (∃ x, contents ms ops !! k = Some x ∧ dq_get_node d i = Val x) ∧
        dq_get_next d i = Val (default SENTINEL (is !! S k)) ∧
        dq_get_prev d i = Val (match k with O => SENTINEL | S k' => default SENTINEL (is !! k') end).
  Proof. exact (links_entries ms v ops). Qed.
  Theorem C12_head_tail_empty ms (v : T) ops :
    N.of_nat ms + 1 < W32 → few ops →
    let d := dq_after ms v ops in
    (dq_head d = SENTINEL ↔ contents ms ops = []) ∧ (dq_tail d = SENTINEL ↔ contents ms ops = []) ∧
    (dq_is_empty d = true ↔ contents ms ops = []).
  Proof. exact (head_tail_empty ms v ops). Qed.
  (** The private [_remove] unlinks the element stored in any occupied slot, not only the first or last one (the public functions
      call it for those only): the remaining elements keep their slots and order, and all later calls behave as on the sequence
      without that element. *)
  Theorem C12_remove_any ms (v : T) ops :
    N.of_nat ms + 1 < W32 → (overflow_checks = true → lengthN ops + 1 < W64) →
    let d := dq_after ms v ops in
    ∃ es : list (N * T), es.*2 = contents ms ops ∧
      (∀ script, dq_iterate script d = Val (de_spec script es)) ∧
      ∀ k i x, es !! k = Some (i, x) → ∃ d', dq_remove i d = Ret (Some x) d' ∧
        (∀ script, dq_iterate script d' = Val (de_spec script (delete k es))) ∧
        ∀ ops', (overflow_checks = true → lengthN ops + 1 + lengthN ops' < W64) →
          (history dq_step ops' d').1 =
            (spec_history (dq_spec (N.of_nat ms)) ops' (delete k (contents ms ops), mutations ms ops + 1)).1.
  Proof.
    intros Hw Hf. pose proof (remove_any_history ms v ops Hw Hf) as Hr. unfold dq_after, contents, mutations. cbn zeta in *.
    by destruct (spec_history _ _ _).2 as [l n].
  Qed.
End props.
Print Assumptions C07_deque_is_sequence.
Print Assumptions C08_push_full.
Print Assumptions C08_push_room.
Print Assumptions C09_deque_iter.
Print Assumptions C10_deque_iter_mut.
Print Assumptions C11_sequence_number.
Print Assumptions C12_links.
Print Assumptions C12_head_tail_empty.
Print Assumptions C12_remove_any.

(** A concrete history: wraps around, fills the deque, panics once, iterates from both ends. *)
Local Instance ex_profile : Profile := {| overflow_checks := true |}.
Definition ex_dq : list (dq_op N) :=
  [DPushBack 1; DPushFront 2; DPopBack; DPushBack 3; DPushFront 4; DPushBack 9; DIterMut [(Bwd, λ x, x * 10); (Fwd, λ x, x + 1)];
   DIter [Fwd; Bwd; Bwd; Fwd; Fwd]].
Example ex_C07 :
  few ex_dq ∧ (history dq_step ex_dq (dq_new 3 0)).1 =
  [Val DUnit; Val DUnit; Val (DVal (Some 1)); Val DUnit; Val DUnit; Err Panic;
   Val (DList [Some 3; Some 4]); Val (DList [Some 5; Some 30; Some 2; None; None])].
Proof. split; [by intros _|]. rewrite C07_deque_is_sequence; [by vm_compute|done|by intros _]. Qed.
Example ex_C08 : dq_len (dq_after 3 0 ex_dq) = 3 ∧ contents 3 ex_dq = [5; 2; 30] ∧ mutations 3 ex_dq = 5.
Proof. by vm_compute. Qed.
Example ex_C12 : dq_head (dq_after 3 0 ex_dq) = 3 ∧ dq_tail (dq_after 3 0 ex_dq) = 1 ∧
  dq_get_next (dq_after 3 0 ex_dq) 3 = Val 2.
Proof. by vm_compute. Qed.
(** Removing the middle one of [5; 2; 30], stored in slot 2, and carrying on *)
Example ex_C12_remove_any :
  match dq_remove 2 (dq_after 3 0 ex_dq) with
  | Ret r d' => r = Some 2 ∧ (history dq_step [DIter [Fwd; Fwd; Fwd]; DIter [Bwd; Bwd]; DPopFront; DPopFront; DPopFront] d').1 =
      [Val (DList [Some 5; Some 30; None]); Val (DList [Some 30; Some 5]); Val (DVal (Some 5)); Val (DVal (Some 30)); Val (DVal None)]
  | Fail _ _ => False
  end.
Proof. by vm_compute. Qed.
