(** * C82: structures used before [initialize]

    The intended use maps a zeroed buffer, calls [initialize], then inserts. What a structure in a zeroed buffer does if [initialize] is
    forgotten, or called late: [dq_zeroed] etc. are the all-zero buffers of C05, [new] the constructed structures. *)
From Verif Require Import UninitSpec UninitProof InitProps.

Section alloc.
  Context `{Profile} {T : Type} (ms nr : nat) (Hw : N.of_nat ms + 1 < W32).
  (** [add_node] on a zeroed pool panics; with or without overflow checks; what it leaves is the pool of [new()] *)
  Theorem C82_alloc (z v : T) : na_add_node v (na_zeroed ms nr z) = Fail Panic (Alloc 0 1 1 (replicate ms (node_default nr z))).
  Proof. exact (zeroed_add ms nr Hw z v). Qed.
End alloc.

(** ** All structures but Critbit: reads and removals answer as on an empty structure, the first insertion panics and initialises *)
Section deque.
  Context `{Profile} {T : Type} (ms : nat) (Hw : N.of_nat ms + 1 < W32) (z : T).
  Theorem C82_dq_reads reads : Forall (λ o, dq_inserts o = false) reads → as_new dq_step (dq_zeroed ms z) (dq_new ms z) reads.
  Proof using. apply (reads_as_new dq_step dq_inserts _ _ dq_none); intros o; by apply dq_empty_reads. Qed.
  Theorem C82_dq_first reads o ops : Forall (λ o, dq_inserts o = false) reads → dq_inserts o = true →
    history dq_step (reads ++ o :: ops) (dq_zeroed ms z) =
      ((history dq_step reads (dq_new ms z)).1 ++ Err Panic :: (history dq_step ops (dq_new ms z)).1, (history dq_step ops (dq_new ms z)).2).
  Proof. apply (first_insert dq_step dq_inserts _ _ dq_none); intros o'; [by apply dq_empty_reads..|by apply dq_zeroed_insert]. Qed.
  (** Too late: [initialize] after the first insertion panics *)
  Theorem C82_dq_late reads o ops : Forall (λ o, dq_inserts o = false) reads → dq_inserts o = true →
    let q := (history dq_step (reads ++ o :: ops) (dq_zeroed ms z)).2 in dq_initialize q = Fail Panic q.
  Proof. intros Hr Ho. rewrite C82_dq_first by done. by apply C05_dq_again. Qed.
End deque.
Section hash.
  Context `{Profile} {K V : Type} (keq : K → K → bool) (hash : K → N) (nb ms : nat) (z : K * V) (h0 : htable K V).
  Context (Hb : (0 < nb)%nat) (Hm : (0 < ms)%nat) (Hw : N.of_nat ms + 1 < W32) (Hnew : ht_new nb ms z = Some h0).
  Theorem C82_ht_reads reads : Forall (λ o, hm_inserts o = false) reads → as_new (ht_step keq hash) (ht_zeroed nb ms z) h0 reads.
  Proof using Hb Hnew.
    apply (reads_as_new (ht_step keq hash) hm_inserts _ _ (hm_none ms)); intros o; apply (ht_empty_reads keq hash nb ms Hb); [apply void_zeroed|by apply (void_new nb ms z)].
  Qed.
  Theorem C82_ht_first reads o ops : Forall (λ o, hm_inserts o = false) reads → hm_inserts o = true →
    history (ht_step keq hash) (reads ++ o :: ops) (ht_zeroed nb ms z) =
      ((history (ht_step keq hash) reads h0).1 ++ Err Panic :: (history (ht_step keq hash) ops h0).1, (history (ht_step keq hash) ops h0).2).
  Proof.
    apply (first_insert (ht_step keq hash) hm_inserts _ _ (hm_none ms)); intros o';
      [apply (ht_empty_reads keq hash nb ms Hb); apply void_zeroed|apply (ht_empty_reads keq hash nb ms Hb); by apply (void_new nb ms z)|by apply ht_zeroed_insert].
  Qed.
  Theorem C82_ht_late reads o ops : Forall (λ o, hm_inserts o = false) reads → hm_inserts o = true →
    let t := (history (ht_step keq hash) (reads ++ o :: ops) (ht_zeroed nb ms z)).2 in ht_initialize t = Fail Panic t.
  Proof. intros Hr Ho. rewrite C82_ht_first by done. by apply (C05_ht_again ms Hw keq hash nb z). Qed.
End hash.
Section rb.
  Context `{Profile} {K V : Type} (cmp : K → K → comparison) (ms : nat) (Hw : N.of_nat ms + 1 < W32) (z : K * V).
  Theorem C82_rb_reads reads : Forall (λ o, rb_inserts o = false) reads → as_new (rb_step cmp) (rb_zeroed ms z) (rb_new ms z) reads.
  Proof using.
    apply (reads_as_new (rb_step cmp) rb_inserts _ _ (rb_none ms)); intros o; apply rb_empty_reads; try done; unfold MAX_SIZE, lengthN; cbn; by rewrite replicate_length.
  Qed.
  Theorem C82_rb_first reads o ops : Forall (λ o, rb_inserts o = false) reads → rb_inserts o = true →
    history (rb_step cmp) (reads ++ o :: ops) (rb_zeroed ms z) =
      ((history (rb_step cmp) reads (rb_new ms z)).1 ++ Err Panic :: (history (rb_step cmp) ops (rb_new ms z)).1, (history (rb_step cmp) ops (rb_new ms z)).2).
  Proof.
    apply (first_insert (rb_step cmp) rb_inserts _ _ (rb_none ms)); intros o'; [apply rb_empty_reads..|by apply rb_zeroed_insert]; try done;
      unfold MAX_SIZE, lengthN; cbn; by rewrite replicate_length.
  Qed.
  Theorem C82_rb_late reads o ops : Forall (λ o, rb_inserts o = false) reads → rb_inserts o = true →
    let t := (history (rb_step cmp) (reads ++ o :: ops) (rb_zeroed ms z)).2 in rb_initialize t = Fail Panic t.
  Proof. intros Hr Ho. rewrite C82_rb_first by done. by apply C05_rb_again. Qed.
End rb.
Section av.
  Context `{Profile} {K V : Type} (pcmp : K → K → option comparison) (ms : nat) (Hw : N.of_nat ms + 1 < W32) (z : K * V).
  Theorem C82_av_reads reads : Forall (λ o, om_inserts o = false) reads → as_new (av_step pcmp) (av_zeroed ms z) (av_new ms z) reads.
  Proof using.
    apply (reads_as_new (av_step pcmp) om_inserts _ _ (om_none ms)); intros o; apply av_empty_reads; try done; unfold MAX_SIZE, lengthN; cbn; by rewrite replicate_length.
  Qed.
  Theorem C82_av_first reads o ops : Forall (λ o, om_inserts o = false) reads → om_inserts o = true →
    history (av_step pcmp) (reads ++ o :: ops) (av_zeroed ms z) =
      ((history (av_step pcmp) reads (av_new ms z)).1 ++ Err Panic :: (history (av_step pcmp) ops (av_new ms z)).1, (history (av_step pcmp) ops (av_new ms z)).2).
  Proof.
    apply (first_insert (av_step pcmp) om_inserts _ _ (om_none ms)); intros o'; [apply av_empty_reads..|by apply av_zeroed_insert]; try done;
      unfold MAX_SIZE, lengthN; cbn; by rewrite replicate_length.
  Qed.
  Theorem C82_av_late reads o ops : Forall (λ o, om_inserts o = false) reads → om_inserts o = true →
    let t := (history (av_step pcmp) (reads ++ o :: ops) (av_zeroed ms z)).2 in av_initialize t = Fail Panic t.
  Proof. intros Hr Ho. rewrite C82_av_first by done. by apply C05_av_again. Qed.
End av.

(** ** Critbit: two allocators, so two panics, and a node slot is lost *)
Section cb.
  Context `{Profile} {V : Type} (nn ms : nat) (Hn : N.of_nat nn + 1 < W32) (Hw : N.of_nat ms + 1 < W32) (z : V).
  Theorem C82_cb_reads t0 reads : cb_new nn ms z = Some t0 → Forall (λ o, om_inserts o = false) reads → as_new cb_step (cb_zeroed nn ms z) t0 reads.
  Proof using.
    intros Ht. apply (reads_as_new cb_step om_inserts _ _ (om_none ms)); intros o; apply cb_empty_reads; try done;
      revert Ht; unfold cb_new; repeat case_decide; intros [= <-]; unfold MAX_SIZE, lengthN; cbn; by rewrite ?replicate_length.
  Qed.
  (** The first insertion panics; now the nodes are ready and the leaves are not; [initialize] panics and does not help *)
  Theorem C82_cb_first k v :
    let t := (call (cb_step (MInsert k v)) (cb_zeroed nn ms z)).2 in
    (call (cb_step (MInsert k v)) (cb_zeroed nn ms z)).1 = Err Panic ∧ cb_leaves t = na_zeroed ms 4 z ∧ cb_initialize t = Fail Panic t.
  Proof using Hn. rewrite (cb_first nn ms Hn z k v). done. Qed.
  (** The second panics as well and leaves an empty Critbit with one node slot in use; the third is stored *)
  Theorem C82_cb_third k1 v1 k2 v2 k v : (2 ≤ nn)%nat → (1 ≤ ms)%nat →
    let '(answers, t2) := history cb_step [MInsert k1 v1; MInsert k2 v2] (cb_zeroed nn ms z) in
    answers = [Err Panic; Err Panic] ∧ cb_root t2 = 0 ∧ cb_len t2 = 0 ∧ size (cb_nodes t2) = 1 ∧ cb_initialize t2 = Fail Panic t2 ∧
    ∃ t3, cb_insert k v t2 = Ret (Some 2) t3 ∧ cb_get t3 k = Val (Some v) ∧ cb_len t3 = 1.
  Proof.
    intros H1 H2. destruct nn as [|[|n']]; [lia..|]. destruct ms as [|m']; [lia|].
    cbn [history]. rewrite cb_first by done. rewrite (cb_second _ _ Hn Hw z k2 v2 (S n') eq_refl). split_and!; try done.
    exact (cb_third _ _ Hn Hw z k k2 v n' m' eq_refl eq_refl).
  Qed.
End cb.

(** Claim: as for the other structures, a failed first insertion leaves the Critbit of [new()] *)
Theorem C82_cb_first_refuted :
  ¬ ∀ `{Profile} (nn ms : nat) (k v : N) t0, N.of_nat nn + 1 < W32 → cb_new nn ms 0 = Some t0 → (call (cb_step (MInsert k v)) (cb_zeroed nn ms 0)).2 = t0.
Proof.
  intros Hx. specialize (Hx {| overflow_checks := true |} 4%nat 2%nat 1 1 _ eq_refl eq_refl). vm_compute in Hx. discriminate.
Qed.
(** Claim: a failed insertion changes nothing, so repeating it fails again *)
Theorem C82_repeat_refuted :
  ¬ ∀ `{Profile} (ms : nat) (v : N), (call (dq_step (DPushBack v)) (dq_zeroed ms 0)).1 = Err Panic →
      (history dq_step [DPushBack v; DPushBack v] (dq_zeroed ms 0)).1 = [Err Panic; Err Panic].
Proof.
  intros Hx. specialize (Hx {| overflow_checks := true |} 2%nat 1 eq_refl). vm_compute in Hx. discriminate.
Qed.

(** ** Examples *)
Local Instance ex_profile : Profile := {| overflow_checks := true |}.
Example ex_C82_dq :
  Forall (λ o : dq_op N, dq_inserts o = false) [DLen; DPopFront; DIter [Fwd; Bwd]] ∧ dq_inserts (DPushBack 7) = true ∧
  (history dq_step ([DLen; DPopFront; DIter [Fwd; Bwd]] ++ DPushBack 7 :: [DPushBack 8; DFront; DLen]) (dq_zeroed 3 0)).1 =
    [Val (DNum 0); Val (DVal None); Val (DList [None; None]); Err Panic; Val DUnit; Val (DVal (Some 8)); Val (DNum 1)].
Proof. split; [by repeat constructor|]. split; [done|]. vm_compute. reflexivity. Qed.
Example ex_C82_cb :
  (history cb_step [MLen; MInsert 5 50; MGet 5; MInsert 5 50; MLen; MInsert 5 50; MGet 5; MInsert 6 60; MLen] (cb_zeroed 4 2 0)).1 =
    [Val (MNum 0); Err Panic; Val (MVal None); Err Panic; Val (MNum 0); Val (MBool true); Val (MVal (Some 50)); Val (MBool true); Val (MNum 2)].
Proof. vm_compute. reflexivity. Qed.
Print Assumptions C82_alloc.
Print Assumptions C82_dq_reads.
Print Assumptions C82_dq_first.
Print Assumptions C82_dq_late.
Print Assumptions C82_ht_reads.
Print Assumptions C82_ht_first.
Print Assumptions C82_ht_late.
Print Assumptions C82_rb_reads.
Print Assumptions C82_rb_first.
Print Assumptions C82_rb_late.
Print Assumptions C82_av_reads.
Print Assumptions C82_av_first.
Print Assumptions C82_av_late.
Print Assumptions C82_cb_reads.
Print Assumptions C82_cb_first.
Print Assumptions C82_cb_third.
Print Assumptions C82_cb_first_refuted.
Print Assumptions C82_repeat_refuted.
