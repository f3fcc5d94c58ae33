(** * Property C81: the NodeAllocator used outside its contract

    Callers of the allocator must pass indices that are allocated. The theorems say exactly what happens when they do not: which indices
    later calls of [add_node] hand out ([adds_give], ContractSpec.v) after a double free, after freeing a slot that was never
    allocated, after writing the registers of a freed slot, and after overwriting the public field [size]. [pool ms nr d a live]
    (AllocApi.v): [a] is reached from [default()] by calls within the contract and the indices in [live] are allocated. *)
From Verif Require Import IterProof AllocApi AllocPoolProof ContractSpec ContractProof.

Section contract.
  Context `{Profile} {T : Type} (ms nr : nat) (d : T) (Hw : N.of_nat ms + 1 < W32).
  Notation cap := (N.of_nat ms).
  Implicit Types (a : alloc T) (live fut : list N).

  (** Within the contract: the indices still to be handed out and the allocated ones are together 1 … MAX_SIZE, each once. *)
  Theorem C81_future a live : pool ms nr d a live → ∃ fut, adds_give a fut ∧ live ++ fut ≡ₚ N.of_nat <$> seq 1 ms.
  Proof using Hw. exact (future_fact ms nr d Hw a live). Qed.
  (** … and there is only one such sequence. *)
  Theorem C81_future_unique (v : T) a fut fut' : adds_give a fut → adds_give a fut' → fut = fut'.
  Proof. exact (adds_give_det v a fut fut'). Qed.
  (** Freeing an allocated slot puts it in front. *)
  Theorem C81_free_live a live i fut :
    pool ms nr d a live → i ∈ live → adds_give a fut → adds_give (left_by (AlRemove i) a) (i :: fut).
  Proof using Hw. exact (free_live_fact ms nr d Hw a live i fut). Qed.

  (** Freeing a slot that is free already ([i] was allocated once and would be handed out after [l1]): it is handed out twice, with
      [l1] in between, and then every call panics: the other free slots [l2], also the never-used ones, are lost. *)
  Theorem C81_free_twice a live i l1 l2 :
    pool ms nr d a live → adds_give a (l1 ++ i :: l2) → i < bump_index a → adds_give (left_by (AlRemove i) a) (i :: l1 ++ [i]).
  Proof using Hw. exact (free_twice_fact ms nr d Hw a live i l1 l2). Qed.
  (** Freeing the first never-used slot: it and the later ones are handed out, all recycled slots are lost. *)
  Theorem C81_free_next a live i :
    pool ms nr d a live → i = bump_index a → i ≤ cap →
    adds_give (left_by (AlRemove i) a) (N.of_nat <$> seq (N.to_nat i) (ms + 1 - N.to_nat i)).
  Proof using Hw.
    intros Hp Hi Hc. pose proof (free_next_fact ms nr d Hw a live i Hp Hi Hc) as Hf. unfold fresh in Hf.
    by replace (N.to_nat (cap + 1 - i)) with (ms + 1 - N.to_nat i)%nat in Hf by lia.
  Qed.
  (** … and the slot is handed out with register 0 not SENTINEL but naming the slot [f] that had been next to be handed out. *)
  Theorem C81_free_next_register a live i v f fut :
    pool ms nr d a live → i = bump_index a → i ≤ cap → adds_give a (f :: fut) →
    ∃ a', na_add_node v (left_by (AlRemove i) a) = Ret i a' ∧ na_get_register a' i 0 = Val f.
  Proof using Hw. exact (free_next_register_fact ms nr d Hw a live i v f fut). Qed.
  (** Freeing a later never-used slot: it is handed out first, and once more in its turn. *)
  Theorem C81_free_fresh a live i fut :
    pool ms nr d a live → bump_index a < i ≤ cap → adds_give a fut → adds_give (left_by (AlRemove i) a) (i :: fut) ∧ i ∈ fut.
  Proof using Hw.
    intros Hp Hi Hf. split; [by eapply free_fresh_fact|]. destruct (future_fact ms nr d Hw a live Hp) as (fut' & Hf' & Hperm).
    rewrite (adds_give_det d _ _ _ Hf Hf').
    assert (i ∈ live ++ fut') as Hm.
    { rewrite Hperm. apply elem_of_list_fmap. exists (N.to_nat i). rewrite elem_of_seq. lia. }
    apply elem_of_app in Hm as [Hm|Hm]; [|done]. exfalso. pose proof (live_below_bump ms nr d Hw a live i Hp Hm). lia.
  Qed.
  (** None of these calls is noticed: [remove_node] of any index in 1 … MAX_SIZE answers the value in the slot. The only exception is
      a pool without allocated slots: with overflow checks the call panics (after having changed the free list, see above), without
      them [size] becomes u64::MAX. *)
  Theorem C81_remove_answer a live i :
    pool ms nr d a live → 1 ≤ i ≤ cap →
    ∃ v, get_value a i = Val v ∧
      (call (al_step (AlRemove i)) a).1 = (if decide (overflow_checks = true ∧ live = []) then Err Panic else Val (AlVal (Some v))) ∧
      size (left_by (AlRemove i) a) = (if decide (live = []) then if overflow_checks then 0 else W64 - 1 else lengthN live - 1).
  Proof using Hw. exact (remove_answer_fact ms nr d Hw a live i). Qed.

  (** Writing a register r ≥ 1 of any slot, register 0 of an allocated or never-used slot, or the value of any slot does not
      change what is handed out. *)
  Theorem C81_harmless_set a live i v r fut :
    pool ms nr d a live → 1 ≤ i ≤ cap → r ≠ 0 ∨ i ∈ live ∨ bump_index a ≤ i → adds_give a fut → adds_give (left_by (AlSet i v r) a) fut.
  Proof using Hw. exact (harmless_set_fact ms nr d Hw a live i v r fut). Qed.
  Theorem C81_harmless_write a live i f fut :
    pool ms nr d a live → 1 ≤ i ≤ cap → adds_give a fut → adds_give (left_by (AlWrite i f) a) fut.
  Proof using Hw. exact (harmless_write_fact ms nr d Hw a live i f fut). Qed.
  (** Writing register 0 of a freed slot: after that slot the value written is handed out, whatever it is, if it is an index; every call
      panics otherwise. *)
  Theorem C81_write_freed a live i v l1 l2 :
    pool ms nr d a live → adds_give a (l1 ++ i :: l2) → i < bump_index a →
    ∃ rest, adds_give (left_by (AlSet i v 0) a) (l1 ++ i :: if decide (1 ≤ v ≤ cap) then v :: rest else []).
  Proof using Hw. exact (write_freed_fact ms nr d Hw a live i v l1 l2). Qed.
  (** The public field [size] has no influence. *)
  Theorem C81_size_field a live s fut :
    pool ms nr d a live → overflow_checks = false ∨ s + cap < W64 → adds_give a fut → adds_give (set_size s a) fut.
  Proof using Hw. exact (size_fact ms nr d Hw a live s fut). Qed.

  (** Within the contract, but unstated by it: a recycled slot is handed out with registers 1 … as they were left when it was freed
      (only register 0 is SENTINEL), a never-used one with all registers SENTINEL. *)
  Theorem C81_stale_registers a live i ops v a' r :
    pool ms nr d a live → i ∈ live → stays_free nr i (filter (λ j, j ≠ i) live) ops (left_by (AlRemove i) a) →
    na_add_node v (history al_step ops (left_by (AlRemove i) a)).2 = Ret i a' → 1 ≤ r →
    na_get_register a' i r = na_get_register a i r.
  Proof using Hw. exact (stale_fact ms nr d Hw a live i ops v a' r). Qed.
  Theorem C81_fresh_registers a live v i a' r :
    pool ms nr d a live → bump_index a ≤ i → na_add_node v a = Ret i a' → r < N.of_nat nr → na_get_register a' i r = Val SENTINEL.
  Proof using Hw. exact (fresh_registers_fact ms nr d Hw a live v i a' r). Qed.

  (** After ANY calls with ANY arguments: every failure was a panic (no memory is touched outside the slots), what is handed out
      lies in 1 … MAX_SIZE, and after at most 2·MAX_SIZE further allocations every call panics — a corrupted free list never
      makes [add_node] hand out slots for ever. *)
  Theorem C81_any_calls a0 ops :
    na_default ms nr d = Some a0 → overflow_checks = false ∨ lengthN ops + 2 * cap < W64 →
    let '(rs, a) := history al_step ops a0 in
    Forall (λ r, ∀ e, r = Err e → e = Panic) rs ∧ ∃ is, adds_give a is ∧ Forall (λ i, 1 ≤ i ≤ cap) is ∧ lengthN is ≤ 2 * cap.
  Proof using Hw. exact (any_calls_fact ms nr d Hw a0 ops). Qed.
End contract.
Print Assumptions C81_future.
Print Assumptions C81_future_unique.
Print Assumptions C81_free_live.
Print Assumptions C81_free_twice.
Print Assumptions C81_free_next.
Print Assumptions C81_free_next_register.
Print Assumptions C81_free_fresh.
Print Assumptions C81_remove_answer.
Print Assumptions C81_harmless_set.
Print Assumptions C81_harmless_write.
Print Assumptions C81_write_freed.
Print Assumptions C81_size_field.
Print Assumptions C81_stale_registers.
Print Assumptions C81_fresh_registers.
Print Assumptions C81_any_calls.

(** ** Refuted: what one might expect of the allocator *)
Local Instance ex_profile : Profile := {| overflow_checks := true |}.
Definition ex_start : alloc N := Alloc 0 1 1 (replicate 4 (node_default 2 0)).
(** "whatever was called before, [add_node] does not hand out an index that is in use": false after one double free, which answers
    [Some] as a proper one does. *)
Theorem C81_no_double_hand_out_refuted :
  ∃ (ops : list (al_op N)) j, na_default 4 2 0 = Some ex_start ∧
    (history al_step ops ex_start).1 =
      [Val (AlIdx 1); Val (AlIdx 2); Val (AlVal (Some 20)); Val (AlVal (Some 20)); Val (AlIdx j); Val (AlIdx j)].
Proof. exists [AlAdd 10; AlAdd 20; AlRemove 2; AlRemove 2; AlAdd 30; AlAdd 40], 2. split; by vm_compute. Qed.
(** "a call that panics leaves the free list as it was": false of [remove_node] on an empty pool. *)
Theorem C81_panicking_remove_refuted :
  ∃ a', na_remove_node 3 ex_start = Fail Panic a' ∧ adds_give ex_start [1; 2; 3; 4] ∧ adds_give a' [3; 1; 2; 3; 4].
Proof.
  eexists. split; [vm_compute; reflexivity|].
  assert (pool 4 2 0 ex_start []) as P0 by by constructor.
  assert (adds_give ex_start [1; 2; 3; 4]) as Hf.
  { destruct (C81_future 4 2 0 ltac:(done) _ _ P0) as (fut & Hf & _). pose proof (Hf [0; 0; 0; 0; 0]) as He. vm_compute in He.
    destruct fut as [|f1 [|f2 [|f3 [|f4 [|f5 fut]]]]]; try discriminate He. by simplify_eq. }
  split; [exact Hf|]. exact (proj1 (C81_free_fresh 4 2 0 ltac:(done) _ _ 3 _ P0 ltac:(vm_compute; done) Hf)).
Qed.
Print Assumptions C81_no_double_hand_out_refuted.
Print Assumptions C81_panicking_remove_refuted.

(** ** The hypotheses are met: 4 slots, slots 1 and 3 allocated, slot 2 recycled, slot 4 never used *)
Definition ex_ops : list (al_op N) := [AlAdd 10; AlAdd 20; AlAdd 30; AlConnect 2 3 1 1; AlRemove 2].
Definition ex_pool : alloc N := (history al_step ex_ops ex_start).2.
Example ex_pool_reached : pool 4 2 0 ex_pool [3; 1].
Proof.
  assert (pool 4 2 0 ex_start []) as P0 by by constructor.
  pose proof (pool_call _ _ _ _ _ (AlAdd 10) P0 I) as P1. vm_compute in P1.
  pose proof (pool_call _ _ _ _ _ (AlAdd 20) P1 I) as P2. vm_compute in P2.
  pose proof (pool_call _ _ _ _ _ (AlAdd 30) P2 I) as P3. vm_compute in P3.
  pose proof (pool_call _ _ _ _ _ (AlConnect 2 3 1 1) P3 ltac:(split_and!; [right; mem|right; mem|done|done])) as P4. vm_compute in P4.
  pose proof (pool_call _ _ _ _ _ (AlRemove 2) P4 ltac:(right; mem)) as P5. vm_compute in P5.
  exact P5.
Qed.
Example ex_future : adds_give ex_pool [2; 4] ∧ bump_index ex_pool = 4.
Proof.
  split; [|by vm_compute]. destruct (C81_future 4 2 0 ltac:(done) _ _ ex_pool_reached) as (fut & Hf & _).
  pose proof (Hf [0; 0; 0]) as He. vm_compute in He. destruct fut as [|f1 [|f2 [|f3 fut]]]; try discriminate He. by simplify_eq.
Qed.
(** freeing slot 1, then slot 2 again, then the never-used slot 4 *)
Example ex_free : adds_give (left_by (AlRemove 1) ex_pool) [1; 2; 4] ∧ adds_give (left_by (AlRemove 2) ex_pool) [2; 2] ∧
  adds_give (left_by (AlRemove 4) ex_pool) [4].
Proof.
  destruct ex_future as [Hf Hb]. split_and!.
  - eapply (C81_free_live 4 2 0 ltac:(done) _ [3; 1]); [exact ex_pool_reached|mem|done].
  - eapply (C81_free_twice 4 2 0 ltac:(done) _ [3; 1] 2 [] [4]); [exact ex_pool_reached|done|vm_compute; done].
  - eapply (C81_free_next 4 2 0 ltac:(done) _ [3; 1] 4); [exact ex_pool_reached|by vm_compute|done].
Qed.
(** slot 4 then comes with register 0 naming slot 2 *)
Example ex_next_register : ∃ a', na_add_node 9 (left_by (AlRemove 4) ex_pool) = Ret 4 a' ∧ na_get_register a' 4 0 = Val 2.
Proof.
  destruct ex_future as [Hf Hb]. eapply (C81_free_next_register 4 2 0 ltac:(done) _ [3; 1] 4 9 2 [4]); [exact ex_pool_reached|by vm_compute|done..].
Qed.
Example ex_answer : (call (al_step (AlRemove 2)) ex_pool).1 = Val (AlVal (Some 20)) ∧ size (left_by (AlRemove 2) ex_pool) = 1.
Proof. destruct (C81_remove_answer 4 2 0 ltac:(done) _ _ 2 ex_pool_reached ltac:(done)) as (v & Hv & Ha & Hs). vm_compute in Hv. injection Hv as <-. done. Qed.
(** writing 3 — an allocated slot — into register 0 of the freed slot 2: slot 3 is handed out though it is in use *)
Example ex_write_freed : ∃ rest, adds_give (left_by (AlSet 2 3 0) ex_pool) (2 :: 3 :: rest).
Proof.
  destruct ex_future as [Hf Hb].
  destruct (C81_write_freed 4 2 0 ltac:(done) ex_pool [3; 1] 2 3 [] [4] ex_pool_reached Hf ltac:(vm_compute; done)) as [rest Hr]. by exists rest.
Qed.
Example ex_harmless : adds_give (left_by (AlSet 2 3 1) ex_pool) [2; 4] ∧ adds_give (left_by (AlSet 4 3 0) ex_pool) [2; 4] ∧ adds_give (set_size 77 ex_pool) [2; 4].
Proof.
  destruct ex_future as [Hf Hb]. split_and!.
  - eapply (C81_harmless_set 4 2 0 ltac:(done) _ [3; 1]); [exact ex_pool_reached|done|by left|done].
  - eapply (C81_harmless_set 4 2 0 ltac:(done) _ [3; 1]); [exact ex_pool_reached|done|right; right; vm_compute; done|done].
  - eapply (C81_size_field 4 2 0 ltac:(done) _ [3; 1]); [exact ex_pool_reached|right; done|done].
Qed.
(** slot 2, freed while its register 1 named slot 3, is handed out with that register still naming slot 3, though slot 1 was freed and
    handed out in between *)
Example ex_stale :
  let a := (history al_step [AlAdd 10; AlAdd 20; AlAdd 30; AlConnect 2 3 1 1] ex_start).2 in
  ∃ a', na_add_node 7 (history al_step [AlRemove 1; AlAdd 50] (left_by (AlRemove 2) a)).2 = Ret 2 a' ∧ na_get_register a' 2 1 = Val 3.
Proof.
  cbv zeta. assert (pool 4 2 0 ex_start []) as P0 by by constructor.
  pose proof (pool_call _ _ _ _ _ (AlAdd 10) P0 I) as P1. vm_compute in P1.
  pose proof (pool_call _ _ _ _ _ (AlAdd 20) P1 I) as P2. vm_compute in P2.
  pose proof (pool_call _ _ _ _ _ (AlAdd 30) P2 I) as P3. vm_compute in P3.
  pose proof (pool_call _ _ _ _ _ (AlConnect 2 3 1 1) P3 ltac:(split_and!; [right; mem|right; mem|done|done])) as P4. vm_compute in P4.
  eexists. split; [vm_compute; reflexivity|].
  assert (na_get_register (history al_step [AlAdd 10; AlAdd 20; AlAdd 30; AlConnect 2 3 1 1] ex_start).2 2 1 = Val 3) as <- by by vm_compute.
  eapply (C81_stale_registers 4 2 0 ltac:(done) _ [3; 2; 1] 2 [AlRemove 1; AlAdd 50] 7); [exact P4|mem| |vm_compute; reflexivity|done].
  cbn [stays_free]. split_and!; [vm_compute; set_solver|right; vm_compute; mem|vm_compute; set_solver|done|vm_compute; set_solver|done].
Qed.
(** calls all of which break the contract *)
Example ex_any : ∃ is, adds_give (history al_step [AlRemove 9; AlRemove 3; AlSet 3 1 0; AlConnect 1 3 0 0; AlSet 8 8 8] ex_start).2 is ∧ lengthN is ≤ 8.
Proof.
  pose proof (C81_any_calls 4 2 0 ltac:(done) ex_start [AlRemove 9; AlRemove 3; AlSet 3 1 0; AlConnect 1 3 0 0; AlSet 8 8 8] ltac:(done)
    ltac:(right; vm_compute; done)) as Ha.
  destruct (history _ _ _) as [rs a]. destruct Ha as (_ & is & H1 & _ & H2). by exists is.
Qed.
