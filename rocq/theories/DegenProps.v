(** * C71: containers whose const parameters are 0

    The other theorems about RedBlackTree, AVLTree and Critbit suppose MAX_SIZE > 0, those about HashTable NUM_BUCKETS > 0 (and allow
    MAX_SIZE = 0, as do those about the deque). The source allows 0 everywhere. [zero_answer], [no_bucket_answer]: DegenSpec.v. *)
From Verif Require Import DegenProof.
From Verif Require Export DegenSpec RBApi AVLApi CritApi HashApi.

(** RedBlackTree and AVLTree with MAX_SIZE = 0: every history of calls, for every comparison. The tree never changes, also by an
    insertion that panics. *)
Theorem C71_rb_capacity0 `{Profile} {K V : Type} (cmp : K → K → comparison) (d : K * V) (ops : list (option (om_op K V))) :
  history (rb_step cmp) ops (rb_new 0 d) = (map zero_answer_rb ops, rb_new 0 d).
Proof. apply history_fixed. exact (rb0_step cmp d). Qed.
Theorem C71_av_capacity0 `{Profile} {K V : Type} (pcmp : K → K → option comparison) (d : K * V) (ops : list (om_op K V)) :
  history (av_step pcmp) ops (av_new 0 d) = (map zero_answer ops, av_new 0 d).
Proof. apply history_fixed. exact (av0_step pcmp d). Qed.
(** Critbit with MAX_SIZE = 0 and any NUM_NODES: the same answers, but an insertion that panics has taken a node already, which is lost:
    after as many insertions as there are nodes the node array is full. *)
Theorem C71_cb_capacity0 `{Profile} {V : Type} (nn : nat) (d : V) (t0 : critbit V) (ops : list (om_op N V)) :
  N.of_nat nn + 1 < W32 → cb_new nn 0 d = Some t0 →
  let '(rs, t) := history cb_step ops t0 in
  rs = map zero_answer ops ∧ cb_root t = SENTINEL ∧ cb_leaves t = cb_leaves t0 ∧
  size (cb_nodes t) = N.min (insertions ops) (N.of_nat nn).
Proof.
  intros Hn H0. destruct (cb0_history nn d Hn t0 H0 ops) as (Ha & _ & Hr & Hl & ns & Hns & _).
  destruct (cb0_new nn d t0 H0) as (_ & _ & Hl0 & _).
  destruct (history cb_step ops t0) as [rs t]. cbn [fst snd] in *. split_and!; [done|done|congruence|by rewrite Hns].
Qed.
(** HashTable with NUM_BUCKETS = 0: only [len], [is_empty] and [capacity] do not panic *)
Theorem C71_ht_no_buckets `{Profile} {K V : Type} (keq : K → K → bool) (hash : K → N) (ms : nat) (d : K * V) (h0 : htable K V) (ops : list (hm_op K V)) :
  ht_new 0 ms d = Some h0 → history (ht_step keq hash) ops h0 = (map (no_bucket_answer (N.of_nat ms)) ops, h0).
Proof. intros H0. apply history_fixed. exact (ht0_step keq hash ms d h0 H0). Qed.
Print Assumptions C71_rb_capacity0.
Print Assumptions C71_av_capacity0.
Print Assumptions C71_cb_capacity0.
Print Assumptions C71_ht_no_buckets.

(** "The node of an insertion that fails is not lost" is false: with the leaves full but the tree empty, that is for MAX_SIZE = 0, each
    insertion that panics uses up a node *)
Theorem C71_cb_leak_refuted : ∃ (P : Profile) (t0 : critbit N),
  cb_new 3 0 0 = Some t0 ∧ size (cb_nodes t0) = 0 ∧
  (call (cb_insert 5 7) t0).1 = Err Panic ∧ size (cb_nodes (call (cb_insert 5 7) t0).2) = 1.
Proof. exists {| overflow_checks := true |}. eexists. split; [done|]. by vm_compute. Qed.
Print Assumptions C71_cb_leak_refuted.

(** Concrete cases of the hypotheses: both constructors accept 0 *)
Example ex_C71_new : ∃ (t0 : critbit N) (h0 : htable N N), cb_new 0 0 7 = Some t0 ∧ ht_new 0 4 (1, 2) = Some h0.
Proof. by do 2 eexists. Qed.
Example ex_C71_cb `{Profile} : ∃ t0 : critbit N, cb_new 2 0 7 = Some t0 ∧
  let '(rs, t) := history cb_step [MInsert 3 30; MGet 3; MInsert 4 40; MInsert 5 50; MIter [Fwd]; MRemove 3] t0 in
  rs = [Err Panic; Val (MVal None); Err Panic; Err Panic; Val (MList [None]); Val (MVal None)] ∧ size (cb_nodes t) = 2.
Proof.
  eexists. split; [done|].
  pose proof (C71_cb_capacity0 2 7 _ [MInsert 3 30; MGet 3; MInsert 4 40; MInsert 5 50; MIter [Fwd]; MRemove 3] ltac:(done) eq_refl) as Hc.
  destruct (history _ _ _) as [rs t]. destruct Hc as (-> & _ & _ & ->). by split.
Qed.
