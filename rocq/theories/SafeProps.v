(** * C56: what the safe interface guarantees when the bytes may be anything

    [load_mut_bytes] is a safe function and accepts every byte string of the right length and alignment, so the calls may start from any
    memory contents: registers pointing anywhere, cycles, wrong sizes. [Err UB] is an access outside the node array (the only one the
    models contain is the raw pointer of a mutable iterator); everything else an array access can do is a panic. *)
From Verif Require Import SafeMain.

Section props.
  Context `{Profile} {T K V : Type}.

  (** ** For every state [s], every buffer [data] and every sequence of calls (each at any address, aligned or not): no access is outside
      the array. There is no hypothesis on [s] or [data]. *)
  Theorem C56_al_in_bounds (ms nr : nat) (ct : codec T) :
    (∀ (s : alloc T) ops, Err UB ∉ (history al_step ops s).1) ∧
    (∀ data aops, Err UB ∉ (history (reloaded (c_alloc ms nr ct) al_step) aops data).1).
  Proof.
    destruct (mok_both (c_alloc ms nr ct) al_step (λ _, True) (λ o _, s_al_step o)) as [H1 H2].
    split; intros; [apply H1|apply H2]; by apply Forall_true.
  Qed.
  Theorem C56_dq_in_bounds (ms : nat) (ct : codec T) :
    (∀ (s : deque T) ops, Err UB ∉ (history dq_step ops s).1) ∧
    (∀ data aops, Err UB ∉ (history (reloaded (c_deque ms ct) dq_step) aops data).1).
  Proof.
    destruct (mok_both (c_deque ms ct) dq_step (λ _, True) (λ o _, s_dq_step o)) as [H1 H2].
    split; intros; [apply H1|apply H2]; by apply Forall_true.
  Qed.
  Theorem C56_ht_in_bounds (nb ms : nat) (ck : codec K) (cv : codec V) keq hash :
    (∀ (s : htable K V) ops, Err UB ∉ (history (ht_step keq hash) ops s).1) ∧
    (∀ data aops, Err UB ∉ (history (reloaded (c_hash nb ms ck cv) (ht_step keq hash)) aops data).1).
  Proof.
    destruct (mok_both (c_hash nb ms ck cv) (ht_step keq hash) (λ _, True) (λ o _, s_ht_step keq hash o)) as [H1 H2].
    split; intros; [apply H1|apply H2]; by apply Forall_true.
  Qed.
  Theorem C56_rb_in_bounds (ms : nat) (ck : codec K) (cv : codec V) cmp :
    (∀ (s : rbt K V) ops, Err UB ∉ (history (rb_step cmp) ops s).1) ∧
    (∀ data aops, Err UB ∉ (history (reloaded (c_rb ms ck cv) (rb_step cmp)) aops data).1) ∧
    (∀ s : rbt K V, rb_is_valid s ≠ Err UB).
  Proof.
    destruct (mok_both (c_rb ms ck cv) (rb_step cmp) (λ _, True) (λ o _, s_rb_step cmp o)) as [H1 H2].
    split_and!; intros; [apply H1; by apply Forall_true|apply H2; by apply Forall_true|apply s_rb_is_valid].
  Qed.
  Theorem C56_av_in_bounds (ms : nat) (ck : codec K) (cv : codec V) pcmp :
    (∀ (s : avlt K V) ops, Err UB ∉ (history (av_step pcmp) ops s).1) ∧
    (∀ data aops, Err UB ∉ (history (reloaded (c_avl ms ck cv) (av_step pcmp)) aops data).1).
  Proof.
    destruct (mok_both (c_avl ms ck cv) (av_step pcmp) (λ _, True) (λ o _, s_av_step pcmp o)) as [H1 H2].
    split; intros; [apply H1|apply H2]; by apply Forall_true.
  Qed.
  (** Critbit: every call except iter_mut *)
  Theorem C56_cb_in_bounds (a128 nn ms : nat) (cv : codec V) :
    (∀ (s : critbit V) ops, (∀ sc, MIterMut sc ∉ ops) → Err UB ∉ (history cb_step ops s).1) ∧
    (∀ data aops, (∀ sc, MIterMut sc ∉ aops.*2) → Err UB ∉ (history (reloaded (c_crit a128 nn ms cv) cb_step) aops data).1).
  Proof.
    destruct (mok_both (c_crit a128 nn ms cv) cb_step (λ o, ∀ sc, o ≠ MIterMut sc) s_cb_step) as [H1 H2].
    split.
    - intros s ops Ho. apply H1. apply Forall_forall. intros o Hin sc ->. by apply (Ho sc).
    - intros data aops Ho. apply H2. apply Forall_forall. intros ao Hin sc E. apply (Ho sc). rewrite <- E. apply elem_of_list_fmap. by exists ao.
  Qed.
  (** and iter_mut if no leaf register exceeds the length of the array of leaves *)
  Theorem C56_cb_iter_mut_in_bounds (s : critbit V) sc :
    (∀ n li, cb_get_leaf_index s n = Val li → li ≤ lengthN (nodes (cb_leaves s))) → (call (cb_iterate_mut sc) s).1 ≠ Err UB.
  Proof. exact (cb_iterate_mut_safe s sc). Qed.
End props.
Print Assumptions C56_al_in_bounds.
Print Assumptions C56_dq_in_bounds.
Print Assumptions C56_ht_in_bounds.
Print Assumptions C56_rb_in_bounds.
Print Assumptions C56_av_in_bounds.
Print Assumptions C56_cb_in_bounds.
Print Assumptions C56_cb_iter_mut_in_bounds.

(** ** What the safe interface does not guarantee *)
Section refuted.
  Context `{Profile}.
  Definition nd (r : list N) (k v : N) : node (N * N) := Node r (k, v).

  (** Critbit's iter_mut indexes the leaves by an unchecked register (critbit.rs:708-722): bytes exist that load accepts and on which the
      first [next] is outside the array *)
  Theorem C56_cb_iter_mut_refuted :
    ∃ data t, load (c_crit 16 4 2 c_u64) 0 data = Val (Some t) ∧
      (call (cb_iterate_mut [(Fwd, λ v, v)]) t).1 = Err UB.
  Proof.
    set (t := Crit 1 (Alloc 1 2 2 (Node [0; 0; 0; 3] (CNode 5 0) :: replicate 3 (Node [0; 0; 0; 0] (CNode 0 0))))
                     (Alloc 1 2 2 (replicate 2 (Node [0; 0; 0; 0] 0)))).
    exists (c_enc (c_crit 16 4 2 c_u64) t), t. split; [by vm_compute|]. destruct H as [[]]; by vm_compute.
  Qed.

  (** Two mutable references to one element: bytes exist that load accepts and on which one iter_mut yields the same slot twice
      (the answers are slot, key, value) *)
  Theorem C56_dq_alias_refuted :
    ∃ data t v, load (c_deque 2 c_u64) 0 data = Val (Some t) ∧
      (call (dq_iterate_mut [(Fwd, λ v, v); (Fwd, λ v, v)]) t).1 = Val [Some (1, v); Some (1, v)].
  Proof.
    set (t := Deque 0 1 2 (Alloc 2 3 3 [Node [0; 1] 7; Node [1; 0] 8])).
    exists (c_enc (c_deque 2 c_u64) t), t, 7. split; [by vm_compute|]. destruct H as [[]]; by vm_compute.
  Qed.
  Theorem C56_ht_alias_refuted :
    ∃ data t e, load (c_hash 2 2 c_u64 c_u64) 0 data = Val (Some t) ∧
      (call (ht_iterate_mut [(Fwd, λ v, v); (Fwd, λ v, v)]) t).1 = Val [Some (1, e); Some (1, e)].
  Proof.
    set (t := HT [1; 1] (Alloc 1 2 2 [nd [0; 0; 0; 0] 5 6; nd [0; 0; 0; 0] 0 0])).
    exists (c_enc (c_hash 2 2 c_u64 c_u64) t), t, (5, 6). split; [by vm_compute|]. destruct H as [[]]; by vm_compute.
  Qed.
  Theorem C56_rb_alias_refuted :
    ∃ data t e e', load (c_rb 2 c_u64 c_u64) 0 data = Val (Some t) ∧
      (call (rb_iterate_mut [(Fwd, λ v, v); (Fwd, λ v, v); (Fwd, λ v, v)]) t).1 = Val [Some (2, e); Some (1, e'); Some (2, e)].
  Proof.
    set (t := RBT 1 (Alloc 2 3 3 [nd [2; 2; 0; 0] 5 6; nd [0; 0; 1; 1] 3 4])).
    exists (c_enc (c_rb 2 c_u64 c_u64) t), t, (3, 4), (5, 6). split; [by vm_compute|]. destruct H as [[]]; by vm_compute.
  Qed.
  Theorem C56_av_alias_refuted :
    ∃ data t e e', load (c_avl 2 c_u64 c_u64) 0 data = Val (Some t) ∧
      (call (av_iterate_mut [(Fwd, λ v, v); (Fwd, λ v, v); (Fwd, λ v, v)]) t).1 = Val [Some (2, e); Some (1, e'); Some (2, e)].
  Proof.
    set (t := AVLT 1 (Alloc 2 3 3 [nd [2; 2; 1; 0] 5 6; nd [0; 0; 0; 0] 3 4])).
    exists (c_enc (c_avl 2 c_u64 c_u64) t), t, (3, 4), (5, 6). split; [by vm_compute|]. destruct H as [[]]; by vm_compute.
  Qed.
  Theorem C56_cb_alias_refuted :
    ∃ data t k k' v, load (c_crit 16 4 2 c_u64) 0 data = Val (Some t) ∧
      (call (cb_iterate_mut [(Fwd, λ v, v); (Fwd, λ v, v)]) t).1 = Val [Some (1, (k, v)); Some (1, (k', v))].
  Proof.
    set (t := Crit 1 (Alloc 3 4 4 [Node [2; 3; 0; 0] (CNode 0 127); Node [0; 0; 1; 1] (CNode 8 128); Node [0; 0; 1; 1] (CNode 9 128);
                                   Node [0; 0; 0; 0] (CNode 0 0)])
                     (Alloc 1 2 2 [Node [0; 0; 0; 0] 4; Node [0; 0; 0; 0] 0])).
    exists (c_enc (c_crit 16 4 2 c_u64) t), t, 8, 9, 4. split; [by vm_compute|]. destruct H as [[]]; by vm_compute.
  Qed.

  (** Calls that never return: bytes exist that load accepts and on which the loop of a lookup, and that of the iterator, runs out of any
      number of rounds; a deque whose iterator never ends *)
  Theorem C56_rb_hang_refuted :
    ∃ data t, load (c_rb 2 c_u64 c_u64) 0 data = Val (Some t) ∧
      (∀ fuel, bst_walk N.compare fuel (rb_al t) 3 (rb_root t) = Err OutOfFuel) ∧
      (∀ fuel, ti_fwd fuel (rb_al t) (rb_iter t) = Err OutOfFuel).
  Proof.
    set (t := RBT 1 (Alloc 1 2 2 [nd [1; 0; 0; 0] 5 6; nd [0; 0; 0; 0] 0 0])).
    exists (c_enc (c_rb 2 c_u64 c_u64) t), t. split; [by vm_compute|]. split.
    - intros fuel. induction fuel as [|fuel IH]; [done|]. exact IH.
    - intros fuel. unfold rb_iter. change (rb_root t) with 1. unfold ti_new. generalize (@nil N) at 1. 
      induction fuel as [|fuel IH]; intros l; [done|]. apply IH.
  Qed.
  Theorem C56_av_hang_refuted :
    ∃ data t, load (c_avl 2 c_u64 c_u64) 0 data = Val (Some t) ∧
      (∀ fuel, av_get_loop (λ a b, Some (N.compare a b)) fuel t 3 (as_u32 (av_root t)) = Err OutOfFuel) ∧
      (∀ fuel, ti_fwd fuel (av_al t) (av_iter t) = Err OutOfFuel).
  Proof.
    set (t := AVLT 1 (Alloc 1 2 2 [nd [1; 0; 1; 0] 5 6; nd [0; 0; 0; 0] 0 0])).
    exists (c_enc (c_avl 2 c_u64 c_u64) t), t. split; [by vm_compute|]. split.
    - intros fuel. change (as_u32 (av_root t)) with 1. induction fuel as [|fuel IH]; [done|]. exact IH.
    - intros fuel. unfold av_iter. change (as_u32 (av_root t)) with 1. unfold ti_new. generalize (@nil N) at 1.
      induction fuel as [|fuel IH]; intros l; [done|]. apply IH.
  Qed.
  Theorem C56_ht_hang_refuted :
    ∃ data t, load (c_hash 2 2 c_u64 c_u64) 0 data = Val (Some t) ∧
      (∀ b, b < 2 → ht_bucket t b = Val 1) ∧ (∀ fuel, ht_get_loop N.eqb fuel t 3 1 = Err OutOfFuel).
  Proof.
    set (t := HT [1; 1] (Alloc 1 2 2 [nd [1; 1; 0; 0] 5 6; nd [0; 0; 0; 0] 0 0])).
    exists (c_enc (c_hash 2 2 c_u64 c_u64) t), t. split; [by vm_compute|]. split.
    - intros b Hb. assert (b = 0 ∨ b = 1) as [-> | ->] by lia; done.
    - intros fuel. induction fuel as [|fuel IH]; [done|]. exact IH.
  Qed.
  Theorem C56_cb_hang_refuted :
    ∃ data t, load (c_crit 16 4 2 c_u64) 0 data = Val (Some t) ∧
      (∀ fuel, cb_get_loop fuel t 3 (cb_root t) = Err OutOfFuel) ∧
      (∀ fuel, ci_fwd fuel t (cb_iter t) = Err OutOfFuel).
  Proof.
    set (t := Crit 1 (Alloc 1 2 2 (Node [1; 1; 0; 0] (CNode 0 0) :: replicate 3 (Node [0; 0; 0; 0] (CNode 0 0))))
                     (Alloc 0 1 1 (replicate 2 (Node [0; 0; 0; 0] 0)))).
    exists (c_enc (c_crit 16 4 2 c_u64) t), t. split; [by vm_compute|]. split.
    - intros fuel. change (cb_root t) with 1. induction fuel as [|fuel IH]; [done|]. exact IH.
    - intros fuel. change (cb_iter t) with (CIter [1] None [1] None false). generalize (@nil N) at 1.
      induction fuel as [|fuel IH]; intros l; [done|]. apply IH.
  Qed.
  Theorem C56_dq_endless_refuted :
    ∃ data t, load (c_deque 2 c_u64) 0 data = Val (Some t) ∧
      ∀ n, dq_iterate (replicate n Fwd) t = Val (replicate n (Some (1, 7))).
  Proof.
    set (t := Deque 0 1 2 (Alloc 2 3 3 [Node [0; 1] 7; Node [1; 0] 8])).
    exists (c_enc (c_deque 2 c_u64) t), t. split; [by vm_compute|].
    intros n. unfold dq_iterate. change (dq_mk_iter t) with (DqIter 1 2 false). induction n as [|n IH]; [done|].
    cbn [replicate drive]. change (dq_iter_next t (DqIter 1 2 false)) with (Val (Some (1, 7), DqIter 1 2 false)).
    unfold mbind, res_bind in *. cbn [fst snd]. by rewrite IH.
  Qed.
End refuted.
Print Assumptions C56_cb_iter_mut_refuted.
Print Assumptions C56_dq_alias_refuted.
Print Assumptions C56_ht_alias_refuted.
Print Assumptions C56_rb_alias_refuted.
Print Assumptions C56_av_alias_refuted.
Print Assumptions C56_cb_alias_refuted.
Print Assumptions C56_rb_hang_refuted.
Print Assumptions C56_av_hang_refuted.
Print Assumptions C56_ht_hang_refuted.
Print Assumptions C56_cb_hang_refuted.
Print Assumptions C56_dq_endless_refuted.

(** ** A case: a red-black tree whose registers point everywhere. An insertion, an iteration and a removal panic, none is outside the array;
    a buffer that is too short and a misaligned one panic as well *)
Local Instance ex_profile : Profile := {| overflow_checks := false |}.
Example ex_C56 :
  let t := RBT 1 (Alloc 2 3 3 [nd [9; 4000000000; 77; 5] 5 6; nd [0; 0; 1; 1] 3 4]) in
  (history (rb_step N.compare) [Some (MInsert 4 4); Some (MIterMut [(Fwd, λ v, v)]); Some (MRemove 5)] t).1 = [Err Panic; Err Panic; Err Panic] ∧
  (history (reloaded (c_rb 2 c_u64 c_u64) (rb_step N.compare)) [(1%nat, Some (MGet 4)); (8%nat, Some MLen)]
     (c_enc (c_rb 2 c_u64 c_u64) t)).1 = [Err Panic; Val (MNum 2)] ∧
  (history (reloaded (c_rb 2 c_u64 c_u64) (rb_step N.compare)) [(8%nat, Some (MGet 4))] []).1 = [Err Panic].
Proof. by vm_compute. Qed.
(** The hypothesis of C56_cb_iter_mut_in_bounds holds of a damaged tree (both leaf nodes share leaf 1) *)
Example ex_C56_cb :
  let t := Crit 1 (Alloc 3 4 4 [Node [2; 3; 0; 0] (CNode 0 127); Node [0; 0; 1; 1] (CNode 8 128); Node [0; 0; 1; 1] (CNode 9 128);
                                Node [0; 0; 0; 0] (CNode 0 0)])
                  (Alloc 1 2 2 [Node [0; 0; 0; 0] 4; Node [0; 0; 0; 0] 0]) in
  ∀ n li, cb_get_leaf_index t n = Val li → li ≤ lengthN (nodes (cb_leaves t)).
Proof.
  intros t n li. unfold cb_get_leaf_index, na_get_register. destruct (decide _); [intros [= <-]; done|].
  unfold mbind, res_bind. destruct (na_get (cb_nodes t) n) as [x|] eqn:E; [|done].
  assert (x ∈ nodes (cb_nodes t)) as Hx.
  { unfold na_get, mbind, res_bind in E. destruct (u32_sub n 1) as [j|]; [|done]. unfold lookupN in E. destruct (decide _); [|done].
    destruct (_ !! _) as [y|] eqn:Ey; [|done]. injection E as <-. by eapply elem_of_list_lookup_2. }
  cbn in Hx. rewrite !elem_of_cons in Hx. destruct Hx as [-> | [-> | [-> | [-> | Hx]]]]; [..|by apply elem_of_nil in Hx];
    intros [= <-]; done.
Qed.
