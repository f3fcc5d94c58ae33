(** * Properties C01-C04, C06: the NodeAllocator *)
From Verif Require Import IterProof AllocApi AllocPoolProof.

(** A concrete pool, used to show that the hypotheses below are satisfiable: 3 slots, 2 registers, debug build;
    add 10, add 20, remove slot 1, link slot 2 to itself. *)
Local Instance ex_profile : Profile := {| overflow_checks := true |}.
Definition ex_ops : list (al_op N) :=
  [AlAdd 10; AlAdd 20; AlRemove 1; AlConnect 2 2 0 1; AlWrite 2 (λ v, v + 1)].
Definition ex_start : alloc N := Alloc 0 1 1 (replicate 3 (node_default 2 0)).
Definition ex_pool : alloc N := (history al_step ex_ops ex_start).2.
Example ex_pool_reached : pool 3 2 0 ex_pool [2].
Proof.
  assert (pool 3 2 0 ex_start []) as P0 by by constructor.
  pose proof (pool_call _ _ _ _ _ (AlAdd 10) P0 I) as P1. vm_compute in P1.
  pose proof (pool_call _ _ _ _ _ (AlAdd 20) P1 I) as P2. vm_compute in P2.
  pose proof (pool_call _ _ _ _ _ (AlRemove 1) P2 ltac:(right; right; left)) as P3. vm_compute in P3.
  pose proof (pool_call _ _ _ _ _ (AlConnect 2 2 0 1) P3 ltac:(split_and!; [right; left..|done|done])) as P4.
  vm_compute in P4.
  pose proof (pool_call _ _ _ _ _ (AlWrite 2 (λ v, v + 1)) P4 ltac:(left)) as P5. vm_compute in P5.
  exact P5.
Qed.

Section props.
  Context `{Profile} {T : Type}.

  (** C01: an index handed out is in range, not SENTINEL, and was not allocated. *)
  Theorem C01_add_node_fresh (ms nr : nat) (d : T) a live v i a' :
    N.of_nat ms + 1 < W32 → pool ms nr d a live → na_add_node v a = Ret i a' →
    1 ≤ i ≤ N.of_nat ms ∧ i ≠ SENTINEL ∧ i ∉ live.
  Proof. intros Hw. exact (add_fresh ms nr d Hw a live v i a'). Qed.

  (** C02: add_node succeeds iff fewer than MAX_SIZE indices are allocated; else it panics and nothing changes. *)
  Theorem C02_add_node_iff_room (ms nr : nat) (d : T) a live v :
    N.of_nat ms + 1 < W32 → pool ms nr d a live →
    (lengthN live < N.of_nat ms ↔ ∃ i a', na_add_node v a = Ret i a') ∧
    (lengthN live = N.of_nat ms ↔ na_add_node v a = Fail Panic a) ∧ lengthN live ≤ N.of_nat ms.
  Proof. intros Hw. exact (add_iff ms nr d Hw a live v). Qed.

  (** C02, second half: no other call on allocated indices fails. *)
  Theorem C02_no_other_failure (ms nr : nat) (d : T) a live o :
    N.of_nat ms + 1 < W32 → pool ms nr d a live → al_pre nr live o →
    (∃ v, o = AlAdd v ∧ lengthN live = N.of_nat ms) ∨ ∃ r a', al_step o a = Ret r a'.
  Proof. intros Hw. exact (no_failure ms nr d Hw a live o). Qed.

  (** C03: [size] counts the allocated indices (which are distinct). *)
  Theorem C03_size_counts (ms nr : nat) (d : T) a live :
    N.of_nat ms + 1 < W32 → pool ms nr d a live →
    NoDup live ∧ size a = lengthN live ∧ lengthN live ≤ N.of_nat ms.
  Proof. intros Hw. exact (size_live ms nr d Hw a live). Qed.

  (** C04: add_node stores the value, clears the free-list register and touches no other allocated node. *)
  Theorem C04_add_node_local (ms nr : nat) (d : T) a live v i a' :
    N.of_nat ms + 1 < W32 → pool ms nr d a live → na_add_node v a = Ret i a' →
    get_value a' i = Val v ∧ na_get_register a' i 0 = Val SENTINEL ∧
    ∀ j, j ∈ live → na_get a' j = na_get a j.
  Proof. intros Hw. exact (add_local ms nr d Hw a live v i a'). Qed.

  (** C04: remove_node returns the value, touches no other allocated node, and its slot is the next to be handed out. *)
  Theorem C04_remove_node_local (ms nr : nat) (d : T) a live i :
    N.of_nat ms + 1 < W32 → pool ms nr d a live → i ∈ live →
    ∃ v a', get_value a i = Val v ∧ na_remove_node i a = Ret (Some v) a' ∧
      (∀ j, j ∈ live → j ≠ i → na_get a' j = na_get a j) ∧
      ∀ w, ∃ a'', na_add_node w a' = Ret i a''.
  Proof. intros Hw. exact (remove_local ms nr d Hw a live i). Qed.

  Theorem C04_remove_sentinel (a : alloc T) : na_remove_node SENTINEL a = Ret None a.
  Proof. done. Qed.

  (** C06: the four register writers, on any allocator whose nodes have [nr] registers, any addressable indices (or SENTINEL).
      [registers_changed] says which registers change, and that nothing else does. *)
  Theorem C06_connect nr (a : alloc T) i j ri rj :
    wf_nodes nr a → addressable a i → addressable a j → ri < N.of_nat nr → rj < N.of_nat nr →
    ∃ a', na_connect i j ri rj a = Ret () a' ∧
      registers_changed a a' (λ k s, if decide (k = j ∧ s = rj) then Some i
                                     else if decide (k = i ∧ s = ri) then Some j else None).
  Proof. exact (connect_eff nr a i j ri rj). Qed.
  Theorem C06_disconnect nr (a : alloc T) i j ri rj :
    wf_nodes nr a → addressable a i → addressable a j → ri < N.of_nat nr → rj < N.of_nat nr →
    ∃ a', na_disconnect i j ri rj a = Ret () a' ∧
      registers_changed a a' (λ k s, if decide (k = j ∧ s = rj) then Some SENTINEL
                                     else if decide (k = i ∧ s = ri) then Some SENTINEL else None).
  Proof. exact (disconnect_eff nr a i j ri rj). Qed.
  Theorem C06_clear_register nr (a : alloc T) i r :
    wf_nodes nr a → addressable a i → r < N.of_nat nr →
    ∃ a', na_clear_register i r a = Ret () a' ∧
      registers_changed a a' (λ k s, if decide (k = i ∧ s = r) then Some SENTINEL else None).
  Proof. exact (clear_eff nr a i r). Qed.
  Theorem C06_set_register nr (a : alloc T) i v r :
    wf_nodes nr a → addressable a i → r < N.of_nat nr →
    ∃ a', na_set_register i v r a = Ret () a' ∧
      registers_changed a a' (λ k s, if decide (k = i ∧ s = r) then Some v else None).
  Proof. exact (set_eff nr a i v r). Qed.
  Theorem C06_get_register_sentinel (a : alloc T) r : na_get_register a SENTINEL r = Val SENTINEL.
  Proof. done. Qed.
End props.
Print Assumptions C01_add_node_fresh.
Print Assumptions C02_add_node_iff_room.
Print Assumptions C02_no_other_failure.
Print Assumptions C03_size_counts.
Print Assumptions C04_add_node_local.
Print Assumptions C04_remove_node_local.
Print Assumptions C04_remove_sentinel.
Print Assumptions C06_connect.
Print Assumptions C06_disconnect.
Print Assumptions C06_clear_register.
Print Assumptions C06_set_register.
Print Assumptions C06_get_register_sentinel.

(** The hypotheses are met: by [ex_pool] (one live slot of three, a non-trivial free list). *)
Example ex_C01 : ∃ a', na_add_node 7 ex_pool = Ret 1 a' ∧ (1 ≤ 1 ≤ 3 ∧ 1 ≠ SENTINEL ∧ 1 ∉ [2]).
Proof.
  eexists. split; [vm_compute; reflexivity|].
  eapply (C01_add_node_fresh 3 2 0 ex_pool [2] 7); [done|exact ex_pool_reached|vm_compute; reflexivity].
Qed.
Example ex_C02_full :
  let a := (history al_step [AlAdd 1; AlAdd 2; AlAdd 3] ex_start).2 in
  pool 3 2 0 a [3; 2; 1] ∧ na_add_node 4 a = Fail Panic a.
Proof.
  assert (pool 3 2 0 ex_start []) as P0 by by constructor.
  pose proof (pool_call _ _ _ _ _ (AlAdd 1) P0 I) as P1. vm_compute in P1.
  pose proof (pool_call _ _ _ _ _ (AlAdd 2) P1 I) as P2. vm_compute in P2.
  pose proof (pool_call _ _ _ _ _ (AlAdd 3) P2 I) as P3. vm_compute in P3.
  split; [exact P3|]. by apply (C02_add_node_iff_room 3 2 0 _ [3; 2; 1] 4 ltac:(done) P3).
Qed.
Example ex_C03 : size ex_pool = 1.
Proof. by apply (C03_size_counts 3 2 0 ex_pool [2] ltac:(done) ex_pool_reached). Qed.
Example ex_C04 : get_value ex_pool 2 = Val 21 ∧ na_get ex_pool 2 = Val (Node [2; 2] 21).
Proof. by vm_compute. Qed.
Example ex_C06 : wf_nodes 2 ex_pool ∧ addressable ex_pool 2 ∧ addressable ex_pool 0 ∧
  (∃ a', na_connect 2 1 0 1 ex_pool = Ret () a' ∧ na_get_register a' 2 0 = Val 1 ∧ na_get_register a' 1 1 = Val 2).
Proof.
  split_and!; [repeat constructor|right; vm_compute; done|by left|].
  eexists. split; [vm_compute; reflexivity|]. by vm_compute.
Qed.
