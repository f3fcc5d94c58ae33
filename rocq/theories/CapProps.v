(** * C74: how large MAX_SIZE may be

    The other theorems assume MAX_SIZE + 1 < 2³². These say what that condition is for. *)
From Verif Require Import CapSpec Spec AllocModel DequeModel HashModel RBModel AVLModel CritModel CapProof.

Section alloc.
  Context `{Profile} {T : Type} (ms nr : nat) (d : T) (a0 : alloc T) (Hnew : na_default ms nr d = Some a0).
  (** A new allocator hands out the indices 1, 2, …, [room MAX_SIZE], whatever MAX_SIZE is, and then panics. *)
  Theorem C74_handed_out (vs : list T) :
    lengthN vs ≤ room (N.of_nat ms) →
    (history na_add_node vs a0).1 = Val <$> from 1 (length vs) ∧ size (history na_add_node vs a0).2 = lengthN vs ∧
    (lengthN vs = room (N.of_nat ms) → ∀ v, na_add_node v (history na_add_node vs a0).2 = Fail Panic (history na_add_node vs a0).2).
  Proof.
    intros Hl. destruct (adds_fresh ms nr vs 0 a0 (default_fresh ms nr d a0 Hnew) Hl) as [E Hf].
    split; [exact E|]. split; [exact (proj1 Hf)|]. intros Hr v. apply (add_full ms nr). by rewrite <-Hr.
  Qed.
End alloc.
Print Assumptions C74_handed_out.

(** [room MAX_SIZE] is never more than MAX_SIZE, and it is MAX_SIZE exactly if MAX_SIZE + 1 < 2³², or MAX_SIZE + 1 = 2³² and overflow checks are off. *)
Theorem C74_exact `{Profile} (ms : N) :
  room ms ≤ ms ∧ (room ms = ms ↔ ms + 1 < 2 ^ 32 ∨ ms + 1 = 2 ^ 32 ∧ overflow_checks = false).
Proof. split; [apply room_le|exact (room_exact ms)]. Qed.
Print Assumptions C74_exact.

(** With a MAX_SIZE (Critbit: NUM_NODES) that is a multiple of 2³² no container takes even a first entry: each way of adding one panics. *)
Theorem C74_first_insert `{Profile} {T K V : Type} cmp pcmp keq hash (ms nb ms' : nat) (d v : T) (d' : K * V) (k : K) (w dw : V) (kb : N) :
  N.of_nat ms mod 2 ^ 32 = 0 → (0 < ms)%nat → (0 < nb)%nat →
  dq_push_back v (dq_new ms d) = Fail Panic (dq_new ms d) ∧ dq_push_front v (dq_new ms d) = Fail Panic (dq_new ms d) ∧
  rb_insert cmp k w (rb_new ms d') = Fail Panic (rb_new ms d') ∧ av_insert pcmp k w (av_new ms d') = Fail Panic (av_new ms d') ∧
  (∀ h, ht_new nb ms d' = Some h → ht_insert keq hash k w h = Fail Panic h) ∧
  (∀ t, cb_new ms ms' dw = Some t → cb_insert kb w t = Fail Panic t).
Proof.
  intros E H0 Hnb. split; [by apply dq_first|]. split; [by apply dq_first|]. split; [by apply rb_first|]. split; [by apply av_first|].
  split; intros; [by eapply ht_first|by eapply cb_first].
Qed.
Print Assumptions C74_first_insert.

(** ** Cases *)
Example ex_C74_room :
  let on := {| overflow_checks := true |} in let off := {| overflow_checks := false |} in
  @room on 7 = 7 ∧ @room on (2 ^ 32 - 2) = 2 ^ 32 - 2 ∧ @room on (2 ^ 32 - 1) = 2 ^ 32 - 2 ∧ @room off (2 ^ 32 - 1) = 2 ^ 32 - 1 ∧
  @room off (2 ^ 32) = 0 ∧ @room on (2 ^ 32 + 5) = 5 ∧ @room off (2 ^ 33 - 1) = 2 ^ 32 - 1.
Proof. by vm_compute. Qed.
Example ex_C74_small :
  let H := {| overflow_checks := true |} in
  ∃ a0 : alloc N, na_default 3 2 0 = Some a0 ∧ room 3 = 3 ∧ (history na_add_node [10; 20; 30] a0).1 = [Val 1; Val 2; Val 3] ∧
    (history na_add_node [10; 20; 30; 40] a0).1 = [Val 1; Val 2; Val 3; Err Panic].
Proof. intros H. eexists. split; [done|]. by vm_compute. Qed.
(** the hypotheses of the last theorem are met by MAX_SIZE = 2³² *)
Example ex_C74_large : N.of_nat (N.to_nat (2 ^ 32)) mod 2 ^ 32 = 0 ∧ (0 < N.to_nat (2 ^ 32))%nat.
Proof. split; [by rewrite N2Nat.id|]. change (2 ^ 32) with 4294967296. lia. Qed.
