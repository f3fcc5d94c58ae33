(** * C05: initialisation of the allocator and of the five containers

    [*_zeroed] are the structures with every field zero ([z] is the value whose bytes are all zero), [*_new] those built by [new()] (the
    last argument is [T::default()]). [Fail Panic s]: the call panics and leaves the structure [s]. *)
From Verif Require Import TypedTree TypedCrit DequeProps RBProps AVLProps CritProps OrderProps.

(** The u32 arguments of an allocator call are u32 *)
Definition al_u32 {T} (o : al_op T) : Prop :=
  match o with
  | AlRemove i => i < W32 | AlSet _ v _ => v < W32 | AlConnect i j _ _ => i < W32 ∧ j < W32 | _ => True
  end.

Section props.
  Context `{Profile} {T K V : Type} (ms : nat) (Hw : N.of_nat ms + 1 < W32).

  (** [initialize] of a zeroed structure gives the structure of [new()], here for a type whose default value is the zero value [z]
      (if it is another value, the unused slots differ; that this is not observable is [C05_*_default] below) *)
  Theorem C05_alloc_zeroed nr (z : T) :
    na_initialize (na_zeroed ms nr z) = Ret () (Alloc 0 1 1 (replicate ms (node_default nr z))).
  Proof. done. Qed.
  Theorem C05_dq_zeroed (z : T) : dq_initialize (dq_zeroed ms z) = Ret () (dq_new ms z).
  Proof. done. Qed.
  Theorem C05_ht_zeroed nb (z : K * V) h0 : ht_new nb ms z = Some h0 → ht_initialize (ht_zeroed nb ms z) = Ret () h0.
  Proof. unfold ht_new. destruct (decide _) as [Hd|Hd]; [|done]. by intros [= <-]. Qed.
  Theorem C05_rb_zeroed (z : K * V) : rb_initialize (rb_zeroed ms z) = Ret () (rb_new ms z).
  Proof. done. Qed.
  Theorem C05_av_zeroed (z : K * V) : av_initialize (av_zeroed ms z) = Ret () (av_new ms z).
  Proof. done. Qed.
  Theorem C05_cb_zeroed nn (z : V) t0 : cb_new nn ms z = Some t0 → cb_initialize (cb_zeroed nn ms z) = Ret () t0.
  Proof. unfold cb_new. destruct (decide _) as [Hd|Hd]; [|done]. by intros [= <-]. Qed.

  (** After any calls on a new structure, [initialize] panics and changes nothing *)
  Theorem C05_alloc_again nr (d : T) ops :
    Forall al_u32 ops →
    let a := (history al_step ops (Alloc 0 1 1 (replicate ms (node_default nr d)))).2 in na_initialize a = Fail Panic a.
  Proof.
    intros Ho a. set (I := λ _ : T, True).
    apply (ty_init_again (H0:=I) nr ms Hw). apply keeps_history; [|by apply ty_new]. eapply Forall_impl; [exact Ho|].
    intros o Hu. apply keeps_al_step; [done|]. by destruct o.
  Qed.
  Theorem C05_dq_again (d : T) ops :
    let q := (history dq_step ops (dq_new ms d)).2 in dq_initialize q = Fail Panic q.
  Proof. by apply (td_again ms Hw), td_history. Qed.
  Theorem C05_ht_again keq (hash : K → N) nb (d : K * V) h0 ops :
    ht_new nb ms d = Some h0 → let h := (history (ht_step keq hash) ops h0).2 in ht_initialize h = Fail Panic h.
  Proof. intros Ht. apply (th_again nb ms Hw). by eapply th_history. Qed.
  Theorem C05_rb_again cmp (d : K * V) ops :
    let t := (history (rb_step cmp) ops (rb_new ms d)).2 in rb_initialize t = Fail Panic t.
  Proof. by apply (tr_again ms Hw), tr_history. Qed.
  Theorem C05_av_again pcmp (d : K * V) ops :
    let t := (history (av_step pcmp) ops (av_new ms d)).2 in av_initialize t = Fail Panic t.
  Proof. by apply (tv_again ms Hw), tv_history. Qed.
  Theorem C05_cb_again nn (d : V) t0 ops :
    N.of_nat nn + 1 < W32 → cb_new nn ms d = Some t0 → Forall u128_op ops →
    let t := (history cb_step ops t0).2 in cb_initialize t = Fail Panic t.
  Proof. intros Hn Ht Ho. apply (tc_again nn ms Hn Hw). by eapply tc_history. Qed.

  (** The value in the unused slots is not observable: the answers to any calls are the same for any two defaults *)
  Theorem C05_dq_default (d d' : T) ops :
    (overflow_checks = true → lengthN ops < W64) →
    (history dq_step ops (dq_new ms d)).1 = (history dq_step ops (dq_new ms d')).1.
  Proof. intros Hf. by rewrite !C07_deque_is_sequence. Qed.
  Theorem C05_ht_default keq (hash : K → N) nb (d d' : K * V) h0 h0' ops :
    (0 < nb)%nat → ht_new nb ms d = Some h0 → ht_new nb ms d' = Some h0' →
    (history (ht_step keq hash) ops h0).1 = (history (ht_step keq hash) ops h0').1.
  Proof. intros Hn H0 H1. by rewrite (C53_ht_order keq hash nb ms d h0 H0 Hn Hw ops), (C53_ht_order keq hash nb ms d' h0' H1 Hn Hw ops). Qed.
  Theorem C05_rb_default cmp (d d' : K * V) ops :
    OrdLaws cmp → (0 < ms)%nat →
    (history (om_step (rb_api cmp)) ops (rb_new ms d)).1 = (history (om_step (rb_api cmp)) ops (rb_new ms d')).1.
  Proof. intros HO H0. by rewrite !C19_rb_is_map. Qed.
  Theorem C05_av_default pcmp (d d' : K * V) ops :
    OrdLaws (po_cmp pcmp) → (0 < ms)%nat →
    (history (av_step pcmp) ops (av_new ms d)).1 = (history (av_step pcmp) ops (av_new ms d')).1.
  Proof. intros HO H0. by rewrite !C27_av_is_map. Qed.
  Theorem C05_cb_default nn (d d' : V) t0 t0' ops :
    (0 < ms)%nat → N.of_nat nn + 1 < W32 → cb_new nn ms d = Some t0 → cb_new nn ms d' = Some t0' → Forall u128_op ops →
    (history cb_step ops t0).1 = (history cb_step ops t0').1.
  Proof. intros H0 Hn H1 H2 Ho. by rewrite (C33_cb_is_map nn ms d t0 H0 Hn H1 ops Ho), (C33_cb_is_map nn ms d' t0' H0 Hn H2 ops Ho). Qed.
End props.
Print Assumptions C05_alloc_zeroed.
Print Assumptions C05_dq_zeroed.
Print Assumptions C05_ht_zeroed.
Print Assumptions C05_rb_zeroed.
Print Assumptions C05_av_zeroed.
Print Assumptions C05_cb_zeroed.
Print Assumptions C05_alloc_again.
Print Assumptions C05_dq_again.
Print Assumptions C05_ht_again.
Print Assumptions C05_rb_again.
Print Assumptions C05_av_again.
Print Assumptions C05_cb_again.
Print Assumptions C05_dq_default.
Print Assumptions C05_ht_default.
Print Assumptions C05_rb_default.
Print Assumptions C05_av_default.
Print Assumptions C05_cb_default.

(** Concrete cases: a zeroed deque initialised, used and emptied again looks unused in all fields but the allocator's counters, and is
    still refused; a Critbit with a key. *)
Example ex_C05_dq `{Profile} :
  let q := (history dq_step [DPushBack 5; DPopFront] (dq_new 2 0)).2 in
  dq_head q = 0 ∧ dq_tail q = 0 ∧ dq_len q = 0 ∧ dq_initialize q = Fail Panic q.
Proof. split_and!; [done..|]. by apply (C05_dq_again 2). Qed.
Example ex_C05_cb `{Profile} :
  ∃ t0, cb_new 4 2 0 = Some t0 ∧ Forall u128_op [MInsert 3 30] ∧ cb_initialize (cb_zeroed 4 2 0) = Ret () t0 ∧
    cb_initialize (history cb_step [MInsert 3 30] t0).2 = Fail Panic (history cb_step [MInsert 3 30] t0).2.
Proof.
  eexists. split; [done|]. split; [by repeat constructor|]. split; [by apply C05_cb_zeroed|].
  apply (C05_cb_again 2 ltac:(done) 4 0); [done|done|by repeat constructor].
Qed.
Example ex_C05_ht `{Profile} :
  ∃ h0, ht_new 2 1 (0, 0) = Some h0 ∧ ht_initialize (ht_zeroed 2 1 (0, 0)) = Ret () h0 ∧ buckets h0 = [0; 0].
Proof. eexists. split_and!; [done|by apply C05_ht_zeroed|done]. Qed.
Example ex_C05_trees `{Profile} :
  rb_len (history (rb_step N.compare) [Some (MInsert 1 2)] (rb_new 2 (0, 0))).2 = 1 ∧
  av_len (history (av_step (λ a b, Some (N.compare a b))) [MInsert 1 2] (av_new 2 (0, 0))).2 = 1 ∧
  Forall (al_u32 (T:=N)) [AlAdd 5; AlConnect 1 2 0 1; AlRemove 1].
Proof. split_and!; [done|done|by repeat constructor]. Qed.
