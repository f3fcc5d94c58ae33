(** * Properties of Critbit: C33-C39 and its part of C26, C35, C40, C44, C48 *)
From Verif Require Import CritMain.

(** [t0] is a new tree [Critbit::<V, NUM_NODES = nn, MAX_SIZE = ms>::new()] ([d] is the default value); [after o] the tree after the
    calls [o] (with u128 keys); [cb_contents ms o] the pairs, in key order, that the specification [cb_spec] (CritApi.v: the ordered map
    of MapSpec.v, except that [insert] on a full map returns [None]) holds after the same calls. *)
Section props.
  Context `{Profile} {V : Type} (nn ms : nat) (d : V) (t0 : critbit V) (H0 : (0 < ms)%nat) (Hw : N.of_nat nn + 1 < W32)
    (Hnew : cb_new nn ms d = Some t0).
  Notation ops := (list (om_op N V)).
  Notation cap := (N.of_nat ms).
  Notation cmp := N.compare.
  Notation after o := (history cb_step o t0).2.
  Notation contents := (cb_contents ms).

  (** C33: every answer to every call of every history is that of the specification; in particular no call panics (except [Index] on
      an absent key), is undefined or runs out of fuel. *)
  Theorem C33_cb_is_map (o : ops) :
    Forall u128_op o → (history cb_step o t0).1 = (spec_history (cb_spec cap) o []).1.
  Proof. exact (λ Hu, proj1 (cb_reach nn ms d t0 H0 Hw Hnew o Hu)). Qed.
  (** C34 *)
  Theorem C34_cb_iter (o : ops) :
    Forall u128_op o → ascending cmp (contents o) ∧ Forall (λ x, x.1 < W128) (contents o) ∧
    ∀ script, cb_iterate (after o) script = Val (de_spec script (contents o)).
  Proof. exact (cb_iter_fact nn ms d t0 H0 Hw Hnew o). Qed.
  (** C36 *)
  Theorem C36_cb_min (o : ops) :
    Forall u128_op o →
    match head (contents o) with
    | None => cb_get_min (after o) = Val None ∧ cb_get_min_index (after o) = Val SENTINEL
    | Some kv => cb_get_min (after o) = Val (Some kv) ∧ (∀ kv', kv' ∈ contents o → kv' = kv ∨ kv.1 < kv'.1) ∧
        ∃ i, cb_get_min_index (after o) = Val i ∧ cb_get_addr (after o) kv.1 = Val i
    end.
  Proof. exact (cb_min_fact nn ms d t0 H0 Hw Hnew o). Qed.
  Theorem C36_cb_max (o : ops) :
    Forall u128_op o →
    match last (contents o) with
    | None => cb_get_max (after o) = Val None ∧ cb_get_max_index (after o) = Val SENTINEL
    | Some kv => cb_get_max (after o) = Val (Some kv) ∧ (∀ kv', kv' ∈ contents o → kv' = kv ∨ kv'.1 < kv.1) ∧
        ∃ i, cb_get_max_index (after o) = Val i ∧ cb_get_addr (after o) kv.1 = Val i
    end.
  Proof. exact (cb_max_fact nn ms d t0 H0 Hw Hnew o). Qed.
  (** C37, what holds (the claim itself is refuted below): the index returned by [insert] is the address of the key and of its pair
      right after the call *)
  Theorem C37_cb_insert_addr (o : ops) k v i t1 :
    Forall u128_op o → k < W128 → cb_insert k v (after o) = Ret (Some i) t1 → cb_get_addr t1 k = Val i ∧ cb_entry t1 i = Val (k, v).
  Proof. exact (λ Hu, cb_insert_addr_fact nn ms d t0 H0 Hw Hnew o Hu k v i t1). Qed.
  (** C37: no address changes by a call that leaves the set of keys unchanged *)
  Theorem C37_cb_addr_same (o : ops) op k :
    Forall u128_op o → u128_op op → k < W128 → (cb_spec cap op (contents o)).2.*1 = (contents o).*1 →
    cb_get_addr (call (cb_step op) (after o)).2 k = cb_get_addr (after o) k.
  Proof. exact (λ Hu, cb_addr_same_fact nn ms d t0 H0 Hw Hnew o Hu op k). Qed.
  (** C37: the value of a key stays in its slot [j] of the leaf pool until the key is removed (so references are stable, node
      addresses are not) *)
  Theorem C37_cb_value_slot (o o' : ops) k j :
    Forall u128_op o → Forall u128_op o' → k < W128 → om_get cmp k (contents o) ≠ None → MRemove k ∉ o' →
    cb_value_slot (after o) k = Val j →
    let t2 := (history cb_step o' (after o)).2 in
    cb_value_slot t2 k = Val j ∧ ∃ v', cb_get_leaf t2 j = Val v' ∧ cb_get t2 k = Val (Some v').
  Proof. exact (λ Hu, cb_slot_fact nn ms d t0 H0 Hw Hnew o Hu o' k j). Qed.
  (** C38 for trees that are not empty *)
  Theorem C38_cb_addr (o : ops) k :
    Forall u128_op o → k < W128 → contents o ≠ [] →
    match om_get cmp k (contents o) with
    | Some v => ∃ i, cb_get_addr (after o) k = Val i ∧ i ≠ SENTINEL ∧ cb_is_inner_node (after o) i = Val false ∧ cb_entry (after o) i = Val (k, v)
    | None => cb_get_addr (after o) k = Val SENTINEL
    end.
  Proof. exact (λ Hu, cb_addr_fact nn ms d t0 H0 Hw Hnew o Hu k). Qed.
  (** C38 for empty trees: [get_addr] panics, with and without overflow checks (so the claim is false, see [C38_cb_empty_refuted]) *)
  Theorem C38_cb_addr_empty (o : ops) k : Forall u128_op o → contents o = [] → cb_get_addr (after o) k = Err Panic.
  Proof. exact (λ Hu, cb_addr_empty_fact nn ms d t0 H0 Hw Hnew o Hu k). Qed.
  (** C38, cost: a lookup visits at most 129 nodes, whatever the size of the tree ([cb_walk n] is the loop of [get_addr], [get],
      [get_mut], bounded by [n] iterations) *)
  Theorem C38_cb_steps (o : ops) k n :
    Forall u128_op o → k < W128 → contents o ≠ [] → (129 ≤ n)%nat → cb_walk n (after o) k (cb_root (after o)) = cb_get_addr (after o) k.
  Proof. exact (λ Hu, cb_steps_fact nn ms d t0 H0 Hw Hnew o Hu k n). Qed.
  (** C39: [cb_sub t par i ns ks] (CritApi.v): following the registers from node [i] one finds a tree with nodes [ns] and leaf keys
      [ks]. The tree with [n] keys has exactly [2n-1] nodes, all different, no other node of the pool is allocated ([size]), and both
      pools can still hand out all the rest ([add_all]: repeated [add_node]), none of it in use. That no [insert] panics is C33. *)
  Theorem C39_cb_nodes (o : ops) :
    Forall u128_op o →
    cb_len (after o) = lengthN (contents o) ∧
    match contents o with
    | [] => cb_root (after o) = SENTINEL ∧ size (cb_nodes (after o)) = 0
    | _ => ∃ ns, cb_sub (after o) SENTINEL (cb_root (after o)) ns (contents o).*1 ∧ NoDup ns ∧
             lengthN ns = 2 * cb_len (after o) - 1 ∧ size (cb_nodes (after o)) = 2 * cb_len (after o) - 1
    end ∧
    (∀ vs, size (cb_nodes (after o)) + lengthN vs ≤ N.of_nat nn → ∃ is nd', add_all vs (cb_nodes (after o)) = Ret is nd' ∧ NoDup is ∧
       ∀ ns ks, cb_sub (after o) SENTINEL (cb_root (after o)) ns ks → ∀ i, i ∈ is → i ∉ ns) ∧
    (∀ vs, cb_len (after o) + lengthN vs ≤ cap → ∃ is lv', add_all vs (cb_leaves (after o)) = Ret is lv' ∧ NoDup is).
  Proof. exact (cb_nodes_fact nn ms d t0 H0 Hw Hnew o). Qed.
  (** C26 for Critbit. [es]: the pairs with their slots in the leaf pool, in key order. The session answers as [iter] would; no slot is
      yielded twice; [es'], the pairs with the caller's functions applied to the yielded ones, are what the tree holds afterwards, in
      the same slots; no node of the tree changes at all. *)
  Theorem C26_cb_iter_mut (o : ops) script :
    Forall u128_op o →
    ∃ (es : list (N * (N * V))) t',
      es.*2 = contents o ∧ (∀ j kv, (j, kv) ∈ es → cb_value_slot (after o) kv.1 = Val j) ∧
      let '(out, es') := de_mut_spec (λ f e, (e.1, (e.2.1, f e.2.2))) script es in
      cb_iterate_mut script (after o) = Ret out t' ∧ NoDup (map fst (omap id out)) ∧
      es'.*1 = es.*1 ∧ es'.*2.*1 = es.*2.*1 ∧ cb_root t' = cb_root (after o) ∧ cb_nodes t' = cb_nodes (after o) ∧
      (∀ j kv, (j, kv) ∈ es' → cb_value_slot t' kv.1 = Val j ∧ cb_get t' kv.1 = Val (Some kv.2)) ∧
      ∀ script', cb_iterate t' script' = Val (de_spec script' es'.*2).
  Proof. exact (λ Hu, cb_iter_mut_fact nn ms d t0 H0 Hw Hnew o Hu script). Qed.
  (** C35, what holds (the claim itself is refuted below): below capacity [insert] of a present key replaces the value in place *)
  Theorem C35_cb_update (o : ops) k v v0 :
    Forall u128_op o → k < W128 → cb_len (after o) < cap → om_get cmp k (contents o) = Some v0 →
    ∃ i t', cb_insert k v (after o) = Ret (Some i) t' ∧ cb_get_addr (after o) k = Val i ∧ cb_get_addr t' k = Val i ∧
      cb_get t' k = Val (Some v) ∧ cb_len t' = cb_len (after o) ∧
      ∀ script, cb_iterate t' script = Val (de_spec script (om_insert cmp k v (contents o))).
  Proof. exact (λ Hu, cb_update_fact nn ms d t0 H0 Hw Hnew o Hu k v v0). Qed.
  (** C40 for Critbit, capacity > 0: nothing changes at all, whether the key is present or not *)
  Theorem C40_cb_full (o : ops) k v :
    Forall u128_op o → k < W128 → cb_len (after o) = cap → cb_insert k v (after o) = Ret None (after o).
  Proof. exact (λ Hu, cb_full_fact nn ms d t0 H0 Hw Hnew o Hu k v). Qed.
  (** C44 for Critbit *)
  Theorem C44_cb_index (o : ops) k f :
    Forall u128_op o → k < W128 →
    match om_get cmp k (contents o) with
    | Some v => cb_get (after o) k = Val (Some v) ∧ cb_index (after o) k = Val v ∧
                ∃ t', cb_index_mut k f (after o) = Ret v t' ∧
                      ∀ script, cb_iterate t' script = Val (de_spec script (om_alter cmp k f (contents o)))
    | None => cb_get (after o) k = Val None ∧ cb_index (after o) k = Err Panic ∧ cb_index_mut k f (after o) = Fail Panic (after o)
    end.
  Proof. exact (λ Hu, cb_index_fact nn ms d t0 H0 Hw Hnew o Hu k f). Qed.
  (** C48 for Critbit: [get] and [contains]. (The lookups are functions of the state, so they do not modify it.) That [get_addr]
      agrees with them is C38, for trees that are not empty. *)
  Theorem C48_cb_lookups (o : ops) k :
    Forall u128_op o → k < W128 → cb_get (after o) k = Val (om_get cmp k (contents o)) ∧
    cb_contains (after o) k = Val (match om_get cmp k (contents o) with Some _ => true | None => false end).
  Proof. exact (λ Hu, cb_lookups_fact nn ms d t0 H0 Hw Hnew o Hu k). Qed.
End props.
Print Assumptions C33_cb_is_map.
Print Assumptions C34_cb_iter.
Print Assumptions C36_cb_min.
Print Assumptions C36_cb_max.
Print Assumptions C37_cb_insert_addr.
Print Assumptions C37_cb_addr_same.
Print Assumptions C37_cb_value_slot.
Print Assumptions C38_cb_addr.
Print Assumptions C38_cb_addr_empty.
Print Assumptions C38_cb_steps.
Print Assumptions C39_cb_nodes.
Print Assumptions C26_cb_iter_mut.
Print Assumptions C35_cb_update.
Print Assumptions C40_cb_full.
Print Assumptions C44_cb_index.
Print Assumptions C48_cb_lookups.

(** [new] panics exactly if [NUM_NODES < 2 * MAX_SIZE] *)
Theorem C39_cb_new {V} (nn ms : nat) (d : V) : cb_new nn ms d = None ↔ (nn < 2 * ms)%nat.
Proof. unfold cb_new. destruct (decide _); split; intros; try done; lia. Qed.
Print Assumptions C39_cb_new.

(** A tree without [option] around it, for the witnesses and examples *)
Definition ex_new (nn ms : nat) : critbit N := match cb_new nn ms 0 with Some t => t | None => cb_zeroed nn ms 0 end.
Notation ex_after nn ms o := (history cb_step o (ex_new nn ms)).2.

(** C35: the claim fails for Critbit: [insert] of a present key into a full tree returns [None] and the value stays (critbit.rs:413-416
    looks at the size before looking for the key). *)
Theorem C35_cb_refuted :
  ∃ (P : Profile) (k v v' : N),
    let t := ex_after 2 1 [MInsert k v] in
    cb_new 2 1 0 = Some (ex_new 2 1) ∧ v ≠ v' ∧ cb_get t k = Val (Some v) ∧ cb_insert k v' t = Ret None t.
Proof. exists {| overflow_checks := true |}, 7, 70, 71. by vm_compute. Qed.
Print Assumptions C35_cb_refuted.
(** C37: the claim fails for Critbit: [insert] of another key moves the node of [k] (critbit.rs:290-304, 433-441), [remove] of another
    key moves it again (324-354). In between the returned address is that of an inner node. *)
Theorem C37_cb_stable_refuted :
  ∃ (P : Profile) (k v i : N) t1,
    cb_insert k v (ex_new 8 4) = Ret (Some i) t1 ∧
    (let t2 := (history cb_step [MInsert 2 20] t1).2 in
     cb_get t2 k = Val (Some v) ∧ cb_get_addr t2 k = Val 3 ∧ 3 ≠ i ∧ cb_is_inner_node t2 i = Val true) ∧
    (let t3 := (history cb_step [MInsert 2 20; MRemove 2] t1).2 in
     cb_get t3 k = Val (Some v) ∧ cb_get_addr t3 k = Val i).
Proof.
  exists {| overflow_checks := true |}, 1, 10.
  exists 1. eexists. split; [by vm_compute|]. by vm_compute.
Qed.
Print Assumptions C37_cb_stable_refuted.
(** C38: the claim fails on the empty tree *)
Theorem C38_cb_empty_refuted : ∃ (P : Profile) (k : N), cb_get_addr (ex_new 8 4) k = Err Panic.
Proof. exists {| overflow_checks := false |}, 5. by vm_compute. Qed.
Print Assumptions C38_cb_empty_refuted.
(** C40, capacity 0: the claim fails, [insert] panics instead of returning [None] (critbit.rs:408-412), with NUM_NODES = 0 as well as
    with room for nodes *)
Theorem C40_cb_capacity0_refuted :
  ∃ (P : Profile) (k v : N) t t', cb_insert k v (ex_new 0 0) = Fail Panic t ∧ cb_insert k v (ex_new 4 0) = Fail Panic t'.
Proof. exists {| overflow_checks := true |}, 1, 2. eexists. eexists. by vm_compute. Qed.
Print Assumptions C40_cb_capacity0_refuted.
(** C48: on the empty tree [get_addr] does not agree with [get] *)
Theorem C48_cb_empty_refuted :
  ∃ (P : Profile) (k : N), cb_get (ex_new 8 4) k = Val None ∧ cb_contains (ex_new 8 4) k = Val false ∧ cb_get_addr (ex_new 8 4) k = Err Panic.
Proof. exists {| overflow_checks := true |}, 5. by vm_compute. Qed.
Print Assumptions C48_cb_empty_refuted.

(** A concrete history meeting the hypotheses: 5 insertions into capacity 4 (keys differing in the first, the last and middle bits), an
    update, a removal, [Index] on an absent key, mutable iteration from both ends. *)
Local Instance ex_profile : Profile := {| overflow_checks := true |}.
Definition ex_top : N := 170141183460469231731687303715884105728.
Definition ex_cb : list (om_op N N) :=
  [MInsert 5 50; MInsert 4 40; MInsert ex_top 80; MInsert 4 41; MInsert 70000 7; MInsert 9 90; MInsert 9 91; MRemove 5;
   MIterMut [(Bwd, λ v, v + 1); (Fwd, λ v, v + 2)]; MIndex 6; MIter [Fwd; Bwd; Fwd; Fwd; Bwd]].
Example ex_C33 :
  cb_new 8 4 0 = Some (ex_new 8 4) ∧ Forall u128_op ex_cb ∧
  (history cb_step ex_cb (ex_new 8 4)).1 =
    [Val (MBool true); Val (MBool true); Val (MBool true); Val (MBool true); Val (MBool true); Val (MBool false); Val (MBool false);
     Val (MVal (Some 50)); Val (MList [Some (ex_top, 80); Some (4, 41)]); Err Panic;
     Val (MList [Some (4, 43); Some (ex_top, 81); Some (70000, 7); None; None])] ∧
  cb_contents 4 ex_cb = [(4, 43); (70000, 7); (ex_top, 81)].
Proof. split_and!; [done|repeat constructor|by vm_compute|by vm_compute]. Qed.
Example ex_C36_C38 :
  let t := ex_after 8 4 ex_cb in
  cb_get_min t = Val (Some (4, 43)) ∧ cb_get_max t = Val (Some (ex_top, 81)) ∧
  cb_get_addr t 70000 = Val 6 ∧ cb_entry t 6 = Val (70000, 7) ∧ cb_get_addr t 5 = Val SENTINEL ∧ size (cb_nodes t) = 5.
Proof. by vm_compute. Qed.
Example ex_C37 :
  let t := ex_after 8 4 ex_cb in
  (cb_spec 4 (MInsert 4 44) (cb_contents 4 ex_cb)).2.*1 = (cb_contents 4 ex_cb).*1 ∧ cb_value_slot t 70000 = Val 4 ∧
  let t2 := (history cb_step [MRemove 4; MInsert 6 60; MInsert 70001 61] t).2 in
  cb_value_slot t2 70000 = Val 4 ∧ cb_get_addr t2 70000 = Val 3.
Proof. by vm_compute. Qed.
Example ex_C39 :
  cb_sub (ex_after 8 4 [MInsert 5 50; MInsert 4 40; MRemove 5]) SENTINEL 1 [1] [4] ∧
  cb_sub (ex_after 8 4 [MInsert 5 50; MInsert 4 40]) SENTINEL 1 [1; 2; 3] [4; 5].
Proof.
  split.
  - eapply cb_sub_leaf; by vm_compute.
  - eapply (cb_sub_inner _ _ _ _ _ [2] [3] [4] [5]); [by vm_compute..| |].
    + eapply cb_sub_leaf; by vm_compute.
    + eapply cb_sub_leaf; by vm_compute.
Qed.
Example ex_C40 :
  let t := ex_after 8 4 [MInsert 5 50; MInsert 4 40; MInsert 3 30; MInsert 2 20] in
  cb_len t = 4 ∧ cb_insert 1 10 t = Ret None t ∧ cb_insert 3 31 t = Ret None t.
Proof. by vm_compute. Qed.
