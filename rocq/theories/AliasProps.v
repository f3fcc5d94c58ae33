(** * C77: keeping references of [iter_mut] under the aliasing rules of Rust *)
From Verif Require Import DequeProps RBMain AVLMain HashMain CritMain FuzzProof HeldSpec HeldMain AliasModel AliasUse AliasProg AliasTB AliasMain AliasFacts.
Local Open Scope nat_scope.

(** The same programs as in C66, now with the references they make and use: [X_traced] runs the program and records every reborrow, read and write of the [iter_mut] code
    and of the caller (AliasModel.v). [sb_ok] and [tb_ok] say whether Stacked Borrows and Tree Borrows find undefined behaviour (AliasSpec.v); they know nothing about the containers.

    For each container: the events do not change the run ([_same_run]). Under Stacked Borrows a program is fine if it uses only the item of the last call ([_sb_streaming]), and has undefined behaviour if
    it uses an earlier one ([_sb_late]); so exactly the first are fine among those whose questions are all answered ([_sb_exact]). Under Tree Borrows it is fine unless some value is used before
    and after another call ([_tb_phases], [_tb_reuse], [_tb_exact]). *)

Section deque.
  Context `{Profile} {T : Type}.
  Theorem C77_dq_same_run (script : list (hact T)) (d : deque T) :
    forget (dq_traced script d) = dq_held script d.
  Proof. exact (dq_same_run script d). Qed.
  Theorem C77_dq_sb_streaming (script : list (hact T)) (d : deque T) :
    streaming true 0 script → sb_ok (trace_of (dq_traced script d)).
  Proof. exact (dq_sb_streaming script d). Qed.
  Theorem C77_dq_sb_late script (d : deque T) ans d' tr s1 e s2 j f s3 i x :
    dq_traced script d = Ret ans (d', tr) → script = s1 ++ HNext e :: s2 ++ HUse j f :: s3 → j < calls s1 →
    ans !! length s1 = Some (HGot (Some i)) → ans !! (length s1 + S (length s2)) = Some (HFound (Some x)) → ¬ sb_ok tr.
  Proof. exact (dq_sb_late script d ans d' tr s1 e s2 j f s3 i x). Qed.
  Theorem C77_dq_sb_exact script (d : deque T) ans d' tr :
    dq_traced script d = Ret ans (d', tr) → Forall answered ans → sb_ok tr ↔ streaming true 0 script.
  Proof. exact (dq_sb_exact script d ans d' tr). Qed.
  Theorem C77_dq_tb_reuse script (d : deque T) ans d' tr s0 j f s1 e s2 g s3 x i y :
    dq_traced script d = Ret ans (d', tr) → script = s0 ++ HUse j f :: s1 ++ HNext e :: s2 ++ HUse j g :: s3 →
    ans !! length s0 = Some (HFound (Some x)) → ans !! (length s0 + S (length s1)) = Some (HGot (Some i)) →
    ans !! (length s0 + S (length s1 + S (length s2))) = Some (HFound (Some y)) → ¬ tb_ok tr.
  Proof. exact (dq_tb_reuse script d ans d' tr s0 j f s1 e s2 g s3 x i y). Qed.
  Theorem C77_dq_tb_phases (ms : nat) (v : T) (ops : list (dq_op T)) (script : list (hact T)) :
    (N.of_nat ms + 1 < W32)%N → few ops → one_phase script → tb_ok (trace_of (dq_traced script (dq_after ms v ops))).
  Proof. exact (dq_tb_phases ms v ops script). Qed.
  Theorem C77_dq_tb_exact (ms : nat) (v : T) (ops : list (dq_op T)) script ans c' tr :
    (N.of_nat ms + 1 < W32)%N → few ops → dq_traced script (dq_after ms v ops) = Ret ans (c', tr) → Forall answered ans → tb_ok tr ↔ one_phase script.
  Proof. exact (dq_tb_exact ms v ops script ans c' tr). Qed.
End deque.
Print Assumptions C77_dq_same_run.
Print Assumptions C77_dq_sb_streaming.
Print Assumptions C77_dq_sb_late.
Print Assumptions C77_dq_sb_exact.
Print Assumptions C77_dq_tb_reuse.
Print Assumptions C77_dq_tb_phases.
Print Assumptions C77_dq_tb_exact.

Section ht.
  Context `{Profile} {K V : Type}.
  Theorem C77_ht_same_run (script : list (hact V)) (h : htable K V) :
    forget (ht_traced script h) = ht_held script h.
  Proof. exact (ht_same_run script h). Qed.
  Theorem C77_ht_sb_streaming (script : list (hact V)) (h : htable K V) :
    streaming false 0 script → sb_ok (trace_of (ht_traced script h)).
  Proof. exact (ht_sb_streaming script h). Qed.
  Theorem C77_ht_sb_late script (h : htable K V) ans h' tr s1 e s2 j f s3 i x :
    ht_traced script h = Ret ans (h', tr) → script = s1 ++ HNext e :: s2 ++ HUse j f :: s3 → j < calls s1 →
    ans !! length s1 = Some (HGot (Some i)) → ans !! (length s1 + S (length s2)) = Some (HFound (Some x)) → ¬ sb_ok tr.
  Proof. exact (ht_sb_late script h ans h' tr s1 e s2 j f s3 i x). Qed.
  Theorem C77_ht_sb_late_key script (h : htable K V) ans h' tr s1 e s2 j s3 i x :
    ht_traced script h = Ret ans (h', tr) → script = s1 ++ HNext e :: s2 ++ HKey j :: s3 → j < calls s1 →
    ans !! length s1 = Some (HGot (Some i)) → ans !! (length s1 + S (length s2)) = Some (HKeyIs (Some x)) → ¬ sb_ok tr.
  Proof. exact (ht_sb_late_key script h ans h' tr s1 e s2 j s3 i x). Qed.
  Theorem C77_ht_sb_exact script (h : htable K V) ans h' tr :
    ht_traced script h = Ret ans (h', tr) → Forall answered ans → sb_ok tr ↔ streaming false 0 script.
  Proof. exact (ht_sb_exact script h ans h' tr). Qed.
  Theorem C77_ht_tb_reuse script (h : htable K V) ans h' tr s0 j f s1 e s2 g s3 x i y :
    ht_traced script h = Ret ans (h', tr) → script = s0 ++ HUse j f :: s1 ++ HNext e :: s2 ++ HUse j g :: s3 →
    ans !! length s0 = Some (HFound (Some x)) → ans !! (length s0 + S (length s1)) = Some (HGot (Some i)) →
    ans !! (length s0 + S (length s1 + S (length s2))) = Some (HFound (Some y)) → ¬ tb_ok tr.
  Proof. exact (ht_tb_reuse script h ans h' tr s0 j f s1 e s2 g s3 x i y). Qed.
  Theorem C77_ht_tb_phases (keq : K → K → bool) (hash : K → N) (HL : HashLaws keq hash) (nb ms : nat) (d : K * V) (h0 : htable K V) o l (script : list (hact V)) :
    ht_new nb ms d = Some h0 → 0 < nb → (N.of_nat ms + 1 < W32)%N → ht_holds keq hash ms h0 o l → one_phase script → tb_ok (trace_of (ht_traced script (ht_after keq hash h0 o))).
  Proof. exact (ht_tb_phases keq hash HL nb ms d h0 o l script). Qed.
  Theorem C77_ht_tb_exact (keq : K → K → bool) (hash : K → N) (HL : HashLaws keq hash) (nb ms : nat) (d : K * V) (h0 : htable K V) o l script ans c' tr :
    ht_new nb ms d = Some h0 → 0 < nb → (N.of_nat ms + 1 < W32)%N → ht_holds keq hash ms h0 o l → ht_traced script (ht_after keq hash h0 o) = Ret ans (c', tr) → Forall answered ans → tb_ok tr ↔ one_phase script.
  Proof. exact (ht_tb_exact keq hash HL nb ms d h0 o l script ans c' tr). Qed.
End ht.
Print Assumptions C77_ht_same_run.
Print Assumptions C77_ht_sb_streaming.
Print Assumptions C77_ht_sb_late.
Print Assumptions C77_ht_sb_late_key.
Print Assumptions C77_ht_sb_exact.
Print Assumptions C77_ht_tb_reuse.
Print Assumptions C77_ht_tb_phases.
Print Assumptions C77_ht_tb_exact.

Section rb.
  Context `{Profile} {K V : Type}.
  Theorem C77_rb_same_run (script : list (hact V)) (t : rbt K V) :
    forget (rb_traced script t) = rb_held script t.
  Proof. exact (rb_same_run script t). Qed.
  Theorem C77_rb_sb_streaming (script : list (hact V)) (t : rbt K V) :
    streaming false 0 script → sb_ok (trace_of (rb_traced script t)).
  Proof. exact (rb_sb_streaming script t). Qed.
  Theorem C77_rb_sb_late script (t : rbt K V) ans t' tr s1 e s2 j f s3 i x :
    rb_traced script t = Ret ans (t', tr) → script = s1 ++ HNext e :: s2 ++ HUse j f :: s3 → j < calls s1 →
    ans !! length s1 = Some (HGot (Some i)) → ans !! (length s1 + S (length s2)) = Some (HFound (Some x)) → ¬ sb_ok tr.
  Proof. exact (rb_sb_late script t ans t' tr s1 e s2 j f s3 i x). Qed.
  Theorem C77_rb_sb_late_key script (t : rbt K V) ans t' tr s1 e s2 j s3 i x :
    rb_traced script t = Ret ans (t', tr) → script = s1 ++ HNext e :: s2 ++ HKey j :: s3 → j < calls s1 →
    ans !! length s1 = Some (HGot (Some i)) → ans !! (length s1 + S (length s2)) = Some (HKeyIs (Some x)) → ¬ sb_ok tr.
  Proof. exact (rb_sb_late_key script t ans t' tr s1 e s2 j s3 i x). Qed.
  Theorem C77_rb_sb_exact script (t : rbt K V) ans t' tr :
    rb_traced script t = Ret ans (t', tr) → Forall answered ans → sb_ok tr ↔ streaming false 0 script.
  Proof. exact (rb_sb_exact script t ans t' tr). Qed.
  Theorem C77_rb_tb_reuse script (t : rbt K V) ans t' tr s0 j f s1 e s2 g s3 x i y :
    rb_traced script t = Ret ans (t', tr) → script = s0 ++ HUse j f :: s1 ++ HNext e :: s2 ++ HUse j g :: s3 →
    ans !! length s0 = Some (HFound (Some x)) → ans !! (length s0 + S (length s1)) = Some (HGot (Some i)) →
    ans !! (length s0 + S (length s1 + S (length s2))) = Some (HFound (Some y)) → ¬ tb_ok tr.
  Proof. exact (rb_tb_reuse script t ans t' tr s0 j f s1 e s2 g s3 x i y). Qed.
  Theorem C77_rb_tb_phases (cmp : K → K → comparison) (HO : OrdLaws cmp) (ms : nat) (d : K * V) o l (script : list (hact V)) :
    0 < ms → (N.of_nat ms + 1 < W32)%N → rb_holds cmp ms d o l → one_phase script → tb_ok (trace_of (rb_traced script (rb_after cmp ms d o))).
  Proof. exact (rb_tb_phases cmp HO ms d o l script). Qed.
  Theorem C77_rb_tb_exact (cmp : K → K → comparison) (HO : OrdLaws cmp) (ms : nat) (d : K * V) o l script ans c' tr :
    0 < ms → (N.of_nat ms + 1 < W32)%N → rb_holds cmp ms d o l → rb_traced script (rb_after cmp ms d o) = Ret ans (c', tr) → Forall answered ans → tb_ok tr ↔ one_phase script.
  Proof. exact (rb_tb_exact cmp HO ms d o l script ans c' tr). Qed.
End rb.
Print Assumptions C77_rb_same_run.
Print Assumptions C77_rb_sb_streaming.
Print Assumptions C77_rb_sb_late.
Print Assumptions C77_rb_sb_late_key.
Print Assumptions C77_rb_sb_exact.
Print Assumptions C77_rb_tb_reuse.
Print Assumptions C77_rb_tb_phases.
Print Assumptions C77_rb_tb_exact.

Section av.
  Context `{Profile} {K V : Type}.
  Theorem C77_av_same_run (script : list (hact V)) (t : avlt K V) :
    forget (av_traced script t) = av_held script t.
  Proof. exact (av_same_run script t). Qed.
  Theorem C77_av_sb_streaming (script : list (hact V)) (t : avlt K V) :
    streaming false 0 script → sb_ok (trace_of (av_traced script t)).
  Proof. exact (av_sb_streaming script t). Qed.
  Theorem C77_av_sb_late script (t : avlt K V) ans t' tr s1 e s2 j f s3 i x :
    av_traced script t = Ret ans (t', tr) → script = s1 ++ HNext e :: s2 ++ HUse j f :: s3 → j < calls s1 →
    ans !! length s1 = Some (HGot (Some i)) → ans !! (length s1 + S (length s2)) = Some (HFound (Some x)) → ¬ sb_ok tr.
  Proof. exact (av_sb_late script t ans t' tr s1 e s2 j f s3 i x). Qed.
  Theorem C77_av_sb_late_key script (t : avlt K V) ans t' tr s1 e s2 j s3 i x :
    av_traced script t = Ret ans (t', tr) → script = s1 ++ HNext e :: s2 ++ HKey j :: s3 → j < calls s1 →
    ans !! length s1 = Some (HGot (Some i)) → ans !! (length s1 + S (length s2)) = Some (HKeyIs (Some x)) → ¬ sb_ok tr.
  Proof. exact (av_sb_late_key script t ans t' tr s1 e s2 j s3 i x). Qed.
  Theorem C77_av_sb_exact script (t : avlt K V) ans t' tr :
    av_traced script t = Ret ans (t', tr) → Forall answered ans → sb_ok tr ↔ streaming false 0 script.
  Proof. exact (av_sb_exact script t ans t' tr). Qed.
  Theorem C77_av_tb_reuse script (t : avlt K V) ans t' tr s0 j f s1 e s2 g s3 x i y :
    av_traced script t = Ret ans (t', tr) → script = s0 ++ HUse j f :: s1 ++ HNext e :: s2 ++ HUse j g :: s3 →
    ans !! length s0 = Some (HFound (Some x)) → ans !! (length s0 + S (length s1)) = Some (HGot (Some i)) →
    ans !! (length s0 + S (length s1 + S (length s2))) = Some (HFound (Some y)) → ¬ tb_ok tr.
  Proof. exact (av_tb_reuse script t ans t' tr s0 j f s1 e s2 g s3 x i y). Qed.
  Theorem C77_av_tb_phases (pcmp : K → K → option comparison) (HO : OrdLaws (po_cmp pcmp)) (ms : nat) (d : K * V) o (script : list (hact V)) :
    0 < ms → (N.of_nat ms + 1 < W32)%N → one_phase script → tb_ok (trace_of (av_traced script (av_after pcmp ms d o))).
  Proof. exact (av_tb_phases pcmp HO ms d o script). Qed.
  Theorem C77_av_tb_exact (pcmp : K → K → option comparison) (HO : OrdLaws (po_cmp pcmp)) (ms : nat) (d : K * V) o script ans c' tr :
    0 < ms → (N.of_nat ms + 1 < W32)%N → av_traced script (av_after pcmp ms d o) = Ret ans (c', tr) → Forall answered ans → tb_ok tr ↔ one_phase script.
  Proof. exact (av_tb_exact pcmp HO ms d o script ans c' tr). Qed.
End av.
Print Assumptions C77_av_same_run.
Print Assumptions C77_av_sb_streaming.
Print Assumptions C77_av_sb_late.
Print Assumptions C77_av_sb_late_key.
Print Assumptions C77_av_sb_exact.
Print Assumptions C77_av_tb_reuse.
Print Assumptions C77_av_tb_phases.
Print Assumptions C77_av_tb_exact.

Section cb.
  Context `{Profile} {V : Type}.
  Theorem C77_cb_same_run (script : list (hact V)) (t : critbit V) :
    forget (cb_traced script t) = cb_held script t.
  Proof. exact (cb_same_run script t). Qed.
  Theorem C77_cb_sb_streaming (script : list (hact V)) (t : critbit V) :
    streaming true 0 script → sb_ok (trace_of (cb_traced script t)).
  Proof. exact (cb_sb_streaming script t). Qed.
  Theorem C77_cb_sb_late script (t : critbit V) ans t' tr s1 e s2 j f s3 i x :
    cb_traced script t = Ret ans (t', tr) → script = s1 ++ HNext e :: s2 ++ HUse j f :: s3 → j < calls s1 →
    ans !! length s1 = Some (HGot (Some i)) → ans !! (length s1 + S (length s2)) = Some (HFound (Some x)) → ¬ sb_ok tr.
  Proof. exact (cb_sb_late script t ans t' tr s1 e s2 j f s3 i x). Qed.
  Theorem C77_cb_sb_exact script (t : critbit V) ans t' tr :
    cb_traced script t = Ret ans (t', tr) → Forall answered ans → sb_ok tr ↔ streaming true 0 script.
  Proof. exact (cb_sb_exact script t ans t' tr). Qed.
  Theorem C77_cb_tb_reuse script (t : critbit V) ans t' tr s0 j f s1 e s2 g s3 x i y :
    cb_traced script t = Ret ans (t', tr) → script = s0 ++ HUse j f :: s1 ++ HNext e :: s2 ++ HUse j g :: s3 →
    ans !! length s0 = Some (HFound (Some x)) → ans !! (length s0 + S (length s1)) = Some (HGot (Some i)) →
    ans !! (length s0 + S (length s1 + S (length s2))) = Some (HFound (Some y)) → ¬ tb_ok tr.
  Proof. exact (cb_tb_reuse script t ans t' tr s0 j f s1 e s2 g s3 x i y). Qed.
  Theorem C77_cb_tb_phases (nn ms : nat) (d : V) (t0 : critbit V) o (script : list (hact V)) :
    0 < ms → (N.of_nat nn + 1 < W32)%N → cb_new nn ms d = Some t0 → Forall u128_op o → one_phase script → tb_ok (trace_of (cb_traced script (history cb_step o t0).2)).
  Proof. exact (cb_tb_phases nn ms d t0 o script). Qed.
  Theorem C77_cb_tb_exact (nn ms : nat) (d : V) (t0 : critbit V) o script ans c' tr :
    0 < ms → (N.of_nat nn + 1 < W32)%N → cb_new nn ms d = Some t0 → Forall u128_op o → cb_traced script (history cb_step o t0).2 = Ret ans (c', tr) → Forall answered ans → tb_ok tr ↔ one_phase script.
  Proof. exact (cb_tb_exact nn ms d t0 o script ans c' tr). Qed.
End cb.
Print Assumptions C77_cb_same_run.
Print Assumptions C77_cb_sb_streaming.
Print Assumptions C77_cb_sb_late.
Print Assumptions C77_cb_sb_exact.
Print Assumptions C77_cb_tb_reuse.
Print Assumptions C77_cb_tb_phases.
Print Assumptions C77_cb_tb_exact.

(** ** Examples. Three programs the compiler accepts: a [for] loop over two items; [collect] into a vector, then use; and using the first item again after fetching the second.
    The first is fine under both rules, the second under Tree Borrows only, the third under neither. *)
Local Instance ex_profile : Profile := {| overflow_checks := true |}.
Definition ex_loop : list (hact N) := [HNext Fwd; HKey 0; HUse 0 (N.add 100); HNext Bwd; HKey 1; HUse 1 N.succ; HUse 1 N.succ].
Definition ex_collect : list (hact N) := [HNext Fwd; HNext Bwd; HUse 0 (N.add 100); HUse 1 N.succ; HKey 0; HUse 0 N.succ].
Definition ex_again : list (hact N) := [HNext Fwd; HUse 0 N.succ; HNext Fwd; HUse 0 N.succ].
(** The HashTable iterator yields only forwards (C16) *)
Definition ex_ht_loop : list (hact N) := [HNext Fwd; HKey 0; HUse 0 (N.add 100); HNext Fwd; HKey 1; HUse 1 N.succ; HUse 1 N.succ].
Definition ex_ht_collect : list (hact N) := [HNext Fwd; HNext Fwd; HUse 0 (N.add 100); HUse 1 N.succ; HKey 0; HUse 0 N.succ].
Local Notation ops := [MInsert 5%N 50%N; MInsert 3%N 30%N; MInsert 9%N 90%N; MInsert 4%N 40%N; MRemove 4%N].
Definition ex_dq : deque N := dq_after 5 0%N [DPushBack 50%N; DPushBack 90%N; DPushFront 30%N].
Definition ex_rb : rbt N N := rb_after N.compare 5 (0%N, 0%N) (Some <$> ops).
Definition ex_av : avlt N N := av_after (λ a b, Some (N.compare a b)) 5 (0%N, 0%N) ops.
Definition ex_cb : option (critbit N) := t0 ← cb_new 10 5 0%N; Some (history cb_step ops t0).2.
Definition ex_ht : option (htable N N) := h0 ← ht_new 2 5 (0%N, 0%N); Some (ht_after N.eqb id h0 [HInsert 5%N 50%N; HInsert 3%N 30%N; HInsert 4%N 40%N]).
(** All questions are answered *)
Definition all_answered {C K V} (o : outcome (C * trace) (list (hans K V))) : bool :=
  match o with Ret ans _ => forallb (λ a, match a with HGot (Some _) | HKeyIs (Some _) | HFound (Some _) => true | _ => false end) ans | Fail _ _ => false end.
Lemma all_answered_ok {C K V} (o : outcome (C * trace) (list (hans K V))) : all_answered o = true → ∃ ans c, o = Ret ans (c, trace_of o) ∧ Forall answered ans.
Proof.
  destruct o as [ans [c tr]|]; [|done]. cbn. intros Ha. exists ans, c. split; [done|]. apply Forall_forall. intros a Hin. apply elem_of_list_In in Hin.
  rewrite forallb_forall in Ha. specialize (Ha a Hin). destruct a as [[]|[]|[]]; first [done|by eexists].
Qed.
Example C77_ex_scripts :
  (streaming false 0 ex_loop ∧ one_phase ex_loop) ∧ (¬ streaming true 0 ex_collect ∧ one_phase ex_collect) ∧ (¬ streaming true 0 ex_again ∧ ¬ one_phase ex_again) ∧
  streaming false 0 ex_ht_loop ∧ one_phase ex_ht_collect.
Proof.
  split_and!; try (cbn; naive_solver); try (apply phased_elim; cbn; naive_solver).
  intros Ho. by apply (Ho [HNext Fwd] 0 N.succ [] Fwd [] N.succ []).
Qed.
(** The hypotheses of the theorems above are met by them *)
Example C77_ex_answered :
  Forall (λ s, all_answered (dq_traced s ex_dq) && all_answered (rb_traced s ex_rb) && all_answered (av_traced s ex_av) &&
               match ex_cb with Some t => all_answered (cb_traced s t) | None => false end) [ex_loop; ex_collect; ex_again] ∧
  Forall (λ s, match ex_ht with Some h => all_answered (ht_traced s h) | None => false end) [ex_ht_loop; ex_ht_collect; ex_again].
Proof. split; repeat (apply Forall_cons; split; [by vm_compute|]); by apply Forall_nil. Qed.
(** The events of two calls of [next] over the deque and of the use of the value of the first item. Number 8 makes a new [&mut] to the node array and takes away
    what was made from number 2. *)
Example C77_ex_trace :
  trace_of (dq_traced [HNext Fwd; HNext Fwd; HUse 0 N.succ] ex_dq) =
    [Reborrow KShr [] Whole; Read [(KShr, 0)] (RegsOf false 3);
     Reborrow KMut [] (Pool false); Reborrow KRaw [(KMut, 2)] (Pool false); Reborrow KMut [(KRaw, 3); (KMut, 2)] (Slot false 3);
     Reborrow KMut [(KMut, 4); (KRaw, 3); (KMut, 2)] (ValOf false 3);
     Reborrow KShr [] Whole; Read [(KShr, 6)] (RegsOf false 1);
     Reborrow KMut [] (Pool false); Reborrow KRaw [(KMut, 8)] (Pool false); Reborrow KMut [(KRaw, 9); (KMut, 8)] (Slot false 1);
     Reborrow KMut [(KMut, 10); (KRaw, 9); (KMut, 8)] (ValOf false 1);
     Read [(KMut, 5); (KMut, 4); (KRaw, 3); (KMut, 2)] (ValOf false 3); Write [(KMut, 5); (KMut, 4); (KRaw, 3); (KMut, 2)] (ValOf false 3)].
Proof. by vm_compute. Qed.
(** Not every program the compiler accepts is free of undefined behaviour: with [collect] Stacked Borrows stops at the value of the first item *)
Theorem C77_sb_collect_refuted :
  (∃ l, sb_at (trace_of (dq_traced ex_collect ex_dq)) l = None) ∧ (∃ l, sb_at (trace_of (rb_traced ex_collect ex_rb)) l = None) ∧
  (∃ l, sb_at (trace_of (av_traced ex_collect ex_av)) l = None) ∧
  match ex_cb with Some t => ∃ l, sb_at (trace_of (cb_traced ex_collect t)) l = None | None => False end ∧
  match ex_ht with Some h => ∃ l, sb_at (trace_of (ht_traced ex_ht_collect h)) l = None | None => False end.
Proof.
  split_and!; [exists (LVal false 3%N)|exists (LVal false 2%N)|exists (LVal false 2%N)|exists (LVal true 2%N)|exists (LVal false 3%N)]; by vm_compute.
Qed.
Print Assumptions C77_sb_collect_refuted.
(** And with a value used before and after a call neither rule is kept *)
Theorem C77_tb_again_refuted :
  ¬ tb_ok (trace_of (dq_traced ex_again ex_dq)) ∧ ¬ tb_ok (trace_of (rb_traced ex_again ex_rb)) ∧ ¬ tb_ok (trace_of (av_traced ex_again ex_av)) ∧
  match ex_cb with Some t => ¬ tb_ok (trace_of (cb_traced ex_again t)) | None => False end ∧
  match ex_ht with Some h => ¬ tb_ok (trace_of (ht_traced ex_again h)) | None => False end.
Proof.
  split_and!.
  - eapply (C77_dq_tb_reuse ex_again ex_dq _ _ _ [HNext Fwd] 0 N.succ [] Fwd [] N.succ []); [vm_compute; reflexivity|reflexivity..].
  - eapply (C77_rb_tb_reuse ex_again ex_rb _ _ _ [HNext Fwd] 0 N.succ [] Fwd [] N.succ []); [vm_compute; reflexivity|reflexivity..].
  - eapply (C77_av_tb_reuse ex_again ex_av _ _ _ [HNext Fwd] 0 N.succ [] Fwd [] N.succ []); [vm_compute; reflexivity|reflexivity..].
  - destruct ex_cb as [t|] eqn:E; [|by vm_compute in E]. vm_compute in E. injection E as <-.
    match goal with |- ¬ tb_ok (trace_of (cb_traced _ ?c)) => eapply (C77_cb_tb_reuse ex_again c _ _ _ [HNext Fwd] 0 N.succ [] Fwd [] N.succ []) end; [vm_compute; reflexivity|reflexivity..].
  - destruct ex_ht as [h|] eqn:E; [|by vm_compute in E]. vm_compute in E. injection E as <-.
    match goal with |- ¬ tb_ok (trace_of (ht_traced _ ?c)) => eapply (C77_ht_tb_reuse ex_again c _ _ _ [HNext Fwd] 0 N.succ [] Fwd [] N.succ []) end; [vm_compute; reflexivity|reflexivity..].
Qed.
Print Assumptions C77_tb_again_refuted.
