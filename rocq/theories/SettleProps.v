(** * C83: on memory with any contents, a loop that is not over after MAX_SIZE + 1 rounds is never over *)
From Verif Require Import HashModel RBModel AVLModel CritModel SettleSpec SettleProof.
Local Open Scope nat_scope.

(** The loops of the models stop with [OutOfFuel] after one round more than there are node slots (node_allocator.rs: [nodes] has [MAX_SIZE]
    elements). These theorems are about every state, whatever the registers hold and wherever the loop starts: with that many rounds, or
    more, the result is the final one, and [OutOfFuel] then means a loop that never ends. Each is stated for every number [n] of rounds that
    exceeds the number of slots. The comparisons of the keys are arbitrary functions. *)
Theorem C83_tree_walks `{Profile} {K V} (cmp : K → K → comparison) (a : alloc (K * V)) (k : K) (i r : N) (it : titer) n :
  (lengthN (nodes a) < W32)%N → length (nodes a) < n →
  settled (λ m, bst_walk cmp m a k i) n ∧ settled (λ m, na_find_dir m a r i) n ∧
  settled (λ m, ti_fwd m a it) n ∧ settled (λ m, ti_rev m a it) n.
Proof. intros Hw Hn. split; [by apply walk_settles|]. split; [by apply find_dir_settled|]. split; [by apply fwd_settles|by apply rev_settles]. Qed.
Print Assumptions C83_tree_walks.

Theorem C83_red_black `{Profile} {K V} (cmp : K → K → comparison) (t : rbt K V) (k : K) (v : V) (i : N) n :
  (lengthN (nodes (rb_al t)) < W32)%N → length (nodes (rb_al t)) < n →
  settled (λ m, rb_insert_loop cmp m k v i t) n ∧ settled (λ m, rb_remove_loop cmp m k i t) n.
Proof. intros Hw Hn. split; [by apply rb_insert_settles|by apply rb_remove_settles]. Qed.
Print Assumptions C83_red_black.

Theorem C83_avl `{Profile} {K V} (pcmp : K → K → option comparison) (t : avlt K V) (k : K) (v : V) (g : V → V) (i p : N) (rp : list ancestor) n :
  (lengthN (nodes (av_al t)) < W32)%N → length (nodes (av_al t)) < n →
  settled (λ m, av_get_loop pcmp m t k i) n ∧ settled (λ m, av_get_mut_loop pcmp m k g i t) n ∧ settled (λ m, av_insert_loop pcmp m k v rp i t) n ∧
  settled (λ m, av_remove_walk pcmp m t k rp i) n ∧ settled (λ m, av_leftmost_walk m t i p rp) n.
Proof.
  intros Hw Hn. split; [by apply av_get_settles|]. split; [by apply av_get_mut_settles|]. split; [by apply av_insert_settles|].
  split; [by apply av_remove_settles|by apply av_leftmost_settles].
Qed.
Print Assumptions C83_avl.

Theorem C83_hash_table `{Profile} {K V} (keq : K → K → bool) (h : htable K V) (k : K) (v : V) (g : V → V) (b hd i : N) n :
  (lengthN (nodes (ht_al h)) < W32)%N → length (nodes (ht_al h)) < n →
  settled (λ m, ht_get_loop keq m h k i) n ∧ settled (λ m, ht_contains_loop keq m h k i) n ∧ settled (λ m, ht_get_addr_loop keq m h k i) n ∧
  settled (λ m, ht_get_mut_loop keq m k g b hd i h) n ∧ settled (λ m, ht_insert_loop keq m k v b hd i h) n ∧
  settled (λ m, ht_remove_loop keq m k b hd i h) n.
Proof.
  intros Hw Hn. split; [by apply ht_get_settles|]. split; [by apply ht_contains_settles|]. split; [by apply ht_get_addr_settles|].
  split; [by apply ht_get_mut_settles|]. split; [by apply ht_insert_settles|by apply ht_remove_settles].
Qed.
Print Assumptions C83_hash_table.

(** The loop over the buckets, bounded by their number, is over on any memory *)
Theorem C83_hash_table_iterator `{Profile} {K V} (h : htable K V) (it : ht_iter) n :
  length (buckets h) < n → (hti_bucket it < lengthN (buckets h))%N → settled (λ m, ht_skip m h it) n ∧ ht_skip n h it ≠ Err OutOfFuel.
Proof. intros Hn Hb. split; [by apply ht_skip_settles|by apply ht_skip_over]. Qed.
Print Assumptions C83_hash_table_iterator.

Theorem C83_critbit `{Profile} {V} (t : critbit V) (k : N) (v : V) (g : V → V) (i p : N) (b : bool) (it : citer) n :
  (lengthN (nodes (cb_nodes t)) < W32)%N → length (nodes (cb_nodes t)) < n →
  settled (λ m, cb_walk m t k i) n ∧ settled (λ m, cb_get_loop m t k i) n ∧ settled (λ m, cb_get_mut_loop m k g i t) n ∧
  settled (λ m, cb_insert_loop m k v i t) n ∧ settled (λ m, cb_remove_walk m t k p i b) n ∧
  settled (λ m, ci_fwd m t it) n ∧ settled (λ m, ci_rev m t it) n.
Proof.
  intros Hw Hn. split; [by apply cb_walk_settles|]. split; [by apply cb_get_settles|]. split; [by apply cb_get_mut_settles|].
  split; [by apply cb_insert_settles|]. split; [by apply cb_remove_settles|]. split; [by apply ci_fwd_settles|by apply ci_rev_settles].
Qed.
Print Assumptions C83_critbit.

(** ** The loops of which this is false *)

(** red_black_tree.rs:286-307: the search of [is_valid_red_black_tree] visits a node once for every way down to it. On the memory
    [ladder n], with [n] nodes, it takes exactly 2^n rounds and finds all the paths alike. *)
Theorem C83_is_valid_exponential `{Profile} n m : 1 ≤ n → (N.of_nat n < W32)%N →
  rb_valid_loop m (ladder n) [(1, 0)%N] [] = if decide (m < 2 ^ n) then Err OutOfFuel else Val (Some (replicate (2 ^ (n - 1)) (N.of_nat n))).
Proof. intros H1 Hn. by apply ladder_valid. Qed.
Print Assumptions C83_is_valid_exponential.

Local Instance ex_profile : Profile := {| overflow_checks := true |}.
Local Notation nd regs := (Node regs (0, 0)%N).
Local Open Scope N_scope.

(** red_black_tree.rs:510-539, 641-672: the two loops that restore the invariants change the memory while they run, and on a wrong tree
    they may come back to a node that now looks different *)
Theorem C83_fix_insert_refuted : ∃ (t : rbt N N) node,
  lengthN (nodes (rb_al t)) < W32 ∧ ¬ settled (λ m, rb_fix_insert_loop m node t) (S (length (nodes (rb_al t)))).
Proof.
  exists (RBT 1 (Alloc 3 4 4 [nd [3; 3; 2; 1]; nd [1; 0; 3; 1]; nd [2; 2; 1; 1]])), 2. split; [by vm_compute|].
  intros Hs. destruct (Hs 5%nat) as [He|[Hl _]]; [|cbn in Hl; lia]. by vm_compute in He.
Qed.
Print Assumptions C83_fix_insert_refuted.
Theorem C83_fix_remove_refuted : ∃ (t : rbt N N) parent dir,
  lengthN (nodes (rb_al t)) < W32 ∧ ¬ settled (λ m, rb_fix_remove_loop m parent dir t) (S (length (nodes (rb_al t)))).
Proof.
  exists (RBT 0 (Alloc 3 4 4 [nd [2; 0; 3; 0]; nd [3; 0; 1; 0]; nd [1; 1; 2; 0]])), 2, 0. split; [by vm_compute|].
  intros Hs. destruct (Hs 5%nat) as [He|[Hl _]]; [|cbn in Hl; lia]. by vm_compute in He.
Qed.
Print Assumptions C83_fix_remove_refuted.

(** ** Cases *)
(** A tree of three nodes in which the left child of node 3 is node 1: keys below all of them are looked for without end, others are found
    or missed after at most three steps *)
Definition ex_loop : rbt N N := RBT 1 (Alloc 3 4 4 [Node [2; 0; 0; 0] (30, 3); Node [3; 0; 1; 0] (20, 2); Node [1; 0; 2; 0] (10, 1)]).
Example C83_case_hyp : lengthN (nodes (rb_al ex_loop)) < W32 ∧ (length (nodes (rb_al ex_loop)) < 4)%nat.
Proof. split; vm_compute; [done|lia]. Qed.
Example C83_case_never : ∀ m, bst_walk N.compare m (rb_al ex_loop) 5 1 = Err OutOfFuel.
Proof.
  destruct C83_case_hyp as [Hw Hn]. pose proof (proj1 (C83_tree_walks N.compare (rb_al ex_loop) 5 1 0 (ti_new 1) 4 Hw Hn)) as Hs.
  intros m. destruct (Hs m) as [He|[_ He]]; cbn beta in He; rewrite He; by vm_compute.
Qed.
Example C83_case_found :
  bst_walk N.compare 2 (rb_al ex_loop) 10 1 = Err OutOfFuel ∧ bst_walk N.compare 3 (rb_al ex_loop) 10 1 = bst_walk N.compare 4 (rb_al ex_loop) 10 1 ∧
  bst_walk N.compare 3 (rb_al ex_loop) 10 1 = Val 3 ∧ bst_walk N.compare 4 (rb_al ex_loop) 25 1 = Val 0.
Proof. repeat split; by vm_compute. Qed.
(** Four nodes: sixteen rounds, of eight ways down *)
Example C83_case_ladder :
  nodes (rb_al (ladder 4)) = [nd [2; 2; 0; 0]; nd [3; 3; 0; 0]; nd [4; 4; 0; 0]; nd [0; 0; 0; 0]] ∧
  rb_valid_loop 15 (ladder 4) [(1, 0)] [] = Err OutOfFuel ∧ rb_valid_loop 16 (ladder 4) [(1, 0)] [] = Val (Some [4; 4; 4; 4; 4; 4; 4; 4]).
Proof. repeat split; by vm_compute. Qed.
