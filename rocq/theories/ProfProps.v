(** * C51: overflow checks make no difference

    [debug] is a build with overflow checks, [P] and [Q] are arbitrary builds. [history step ops s] is the list of all answers, with the
    panics, and the final structure, with the contents of its unused slots. *)
From Verif Require Import IterProof ProfMain.

Definition debug : Profile := {| overflow_checks := true |}.
Definition release : Profile := {| overflow_checks := false |}.

(** ** On every structure, also a corrupted one: a call in a debug build panics or does exactly what it does in any other build *)
Definition panics_or_same {S A} (m m' : M S A) : Prop := ∀ s, (∃ s', m s = Fail Panic s') ∨ m s = m' s.
Section any.
  Context (Q : Profile) {T K V : Type}.
  Theorem C51_alloc_step (o : al_op T) : panics_or_same (al_step (H:=debug) o) (al_step (H:=Q) o).
  Proof. exact (p_al_step Q o). Qed.
  Theorem C51_dq_step (o : dq_op T) : panics_or_same (dq_step (H:=debug) o) (dq_step (H:=Q) o).
  Proof. exact (p_dq_step Q o). Qed.
  Theorem C51_ht_step keq hash (o : hm_op K V) : panics_or_same (ht_step (H:=debug) keq hash o) (ht_step (H:=Q) keq hash o).
  Proof. exact (p_ht_step Q keq hash o). Qed.
  Theorem C51_rb_step cmp (o : option (om_op K V)) : panics_or_same (rb_step (H:=debug) cmp o) (rb_step (H:=Q) cmp o).
  Proof. exact (p_rb_step Q cmp o). Qed.
  Theorem C51_av_step pcmp (o : om_op K V) : panics_or_same (av_step (H:=debug) pcmp o) (av_step (H:=Q) pcmp o).
  Proof. exact (p_av_om_step Q pcmp o). Qed.
  Theorem C51_cb_step (o : om_op N V) : panics_or_same (cb_step (H:=debug) o) (cb_step (H:=Q) o).
  Proof. exact (p_cb_om_step Q o). Qed.
End any.
Print Assumptions C51_alloc_step.
Print Assumptions C51_dq_step.
Print Assumptions C51_ht_step.
Print Assumptions C51_rb_step.
Print Assumptions C51_av_step.
Print Assumptions C51_cb_step.

(** ** On reachable structures nothing depends on the build *)
Section reach.
  Context (P Q : Profile) {T K V : Type} (ms : nat) (Hw : N.of_nat ms + 1 < W32).

  Theorem C51_alloc nr (d : T) a live :
    (pool (H:=P) ms nr d a live ↔ pool (H:=Q) ms nr d a live) ∧
    (pool (H:=P) ms nr d a live → ∀ o, al_pre nr live o → al_step (H:=P) o a = al_step (H:=Q) o a).
  Proof.
    destruct (al_profiles P ms nr d a live Hw) as [H1 H2], (al_profiles Q ms nr d a live Hw) as [H3 H4].
    split; [tauto|]. intros Hp o Ho. by rewrite <- H2, <- H4 by tauto.
  Qed.
  (** The sequence number is a u64 that an overflow check can see: fewer than 2^64 calls *)
  Theorem C51_dq (d : T) ops :
    lengthN ops < W64 → history (dq_step (H:=P)) ops (dq_new ms d) = history (dq_step (H:=Q)) ops (dq_new ms d).
  Proof. intros Hl. by rewrite <- (dq_profiles P), <- (dq_profiles Q). Qed.
  Theorem C51_ht keq (hash : K → N) nb (d : K * V) h0 ops :
    HashLaws keq hash → (0 < nb)%nat → ht_new nb ms d = Some h0 →
    history (ht_step (H:=P) keq hash) ops h0 = history (ht_step (H:=Q) keq hash) ops h0.
  Proof. intros HL Hn H0. by rewrite <- (ht_profiles P keq hash HL nb ms d h0 ops), <- (ht_profiles Q keq hash HL nb ms d h0 ops). Qed.
  Theorem C51_rb cmp (d : K * V) ops :
    OrdLaws cmp → (0 < ms)%nat →
    history (rb_step (H:=P) cmp) ops (rb_new ms d) = history (rb_step (H:=Q) cmp) ops (rb_new ms d).
  Proof. intros HO H0. by rewrite <- (rb_profiles P), <- (rb_profiles Q). Qed.
  Theorem C51_av pcmp (d : K * V) ops :
    OrdLaws (po_cmp pcmp) → (0 < ms)%nat →
    history (av_step (H:=P) pcmp) ops (av_new ms d) = history (av_step (H:=Q) pcmp) ops (av_new ms d).
  Proof. intros HO H0. by rewrite <- (av_profiles P), <- (av_profiles Q). Qed.
  Theorem C51_cb nn (d : V) t0 ops :
    (0 < ms)%nat → N.of_nat nn + 1 < W32 → cb_new nn ms d = Some t0 → Forall u128_op ops →
    history (cb_step (H:=P)) ops t0 = history (cb_step (H:=Q)) ops t0.
  Proof. intros H0 Hn Ht Ho. by rewrite <- (cb_profiles P nn ms d t0 ops), <- (cb_profiles Q nn ms d t0 ops). Qed.
End reach.
Print Assumptions C51_alloc.
Print Assumptions C51_dq.
Print Assumptions C51_ht.
Print Assumptions C51_rb.
Print Assumptions C51_av.
Print Assumptions C51_cb.

(** At sequence number 2^64 - 1 (in a release build reached by as many pushes and pops) the builds differ: the next push panics in a
    debug build only *)
Theorem C51_dq_seqno_refuted :
  ∃ d : deque N, dq_seqno d = W64 - 1 ∧ (call (dq_step (H:=debug) (DPushBack 7)) d).1 = Err Panic ∧
    (call (dq_step (H:=release) (DPushBack 7)) d).1 = Val DUnit.
Proof. exists (let d := dq_new 1 0 in Deque (W64 - 1) (dq_head d) (dq_tail d) (dq_al d)). vm_compute. done. Qed.
Print Assumptions C51_dq_seqno_refuted.

(** ** Concrete cases *)
Definition ex_ops : list (om_op N N) := [MInsert 4 40; MInsert 2 20; MInsert 9 90; MRemove 4; MIndex 4; MGet 2].
Example ex_C51_rb :
  history (rb_step (H:=debug) N.compare) (Some <$> ex_ops) (rb_new 2 (0, 0)) =
  history (rb_step (H:=release) N.compare) (Some <$> ex_ops) (rb_new 2 (0, 0)).
Proof. apply C51_rb; [done|apply MapProof.N_laws|lia]. Qed.
Example ex_C51_rb_answers :
  (history (rb_step (H:=release) N.compare) (Some <$> ex_ops) (rb_new 2 (0, 0))).1 =
    [Val (MBool true); Val (MBool true); Val (MBool false); Val (MVal (Some 40)); Err Panic; Val (MVal (Some 20))].
Proof. vm_compute. done. Qed.
Example ex_C51_cb :
  ∃ t0, cb_new 4 2 0 = Some t0 ∧ Forall u128_op ex_ops ∧
    history (cb_step (H:=debug)) ex_ops t0 = history (cb_step (H:=release)) ex_ops t0.
Proof.
  eexists. split; [vm_compute; reflexivity|].
  assert (Forall u128_op ex_ops) as Ho by (repeat constructor).
  split; [done|]. by eapply (C51_cb debug release 2 4 0); [lia|..].
Qed.
(** On a corrupted structure the two builds may differ, as [C51_alloc_step] allows: removing a node from an allocator of size 0 *)
Example ex_C51_step :
  ∃ a : alloc N, (call (al_step (H:=debug) (AlRemove 1)) a).1 = Err Panic ∧ (call (al_step (H:=release) (AlRemove 1)) a).1 ≠ Err Panic.
Proof. exists (Alloc 0 1 1 [Node [0] 5]). vm_compute. done. Qed.
