(** * The aliasing rules: every container *)
From Verif Require Import DequeProps RBMain AVLMain HashMain CritMain FuzzProof HeldSpec HeldMain AliasModel AliasUse AliasProg AliasMain.
Local Open Scope nat_scope.

Section deque.
  Context `{Profile} {T : Type}.
  Lemma dq_same_run (script : list (hact T)) (d : deque T) : forget (dq_traced script d) = dq_held script d.
  Proof. exact (f_same FlValue dq_b_next dq_b_next_back dq_ref_next dq_ref_next_back id (λ _ _, Val ()) dq_ref_use dq_next_ok dq_next_back_ok script (d, dq_mk_iter d)). Qed.
  Lemma dq_sb_streaming (script : list (hact T)) (d : deque T) : streaming true 0 script → sb_ok (trace_of (dq_traced script d)).
  Proof. exact (f_streaming FlValue dq_b_next dq_b_next_back dq_ref_next dq_ref_next_back id (λ _ _, Val ()) dq_ref_use dq_next_ok dq_next_back_ok script (d, dq_mk_iter d)). Qed.
  Lemma dq_sb_late script (d : deque T) ans d' tr s1 e s2 j f s3 i x : dq_traced script d = Ret ans (d', tr) → script = s1 ++ HNext e :: s2 ++ HUse j f :: s3 → j < calls s1 →
    ans !! length s1 = Some (HGot (Some i)) → ans !! (length s1 + S (length s2)) = Some (HFound (Some x)) → ¬ sb_ok tr.
  Proof. exact (f_late FlValue dq_b_next dq_b_next_back dq_ref_next dq_ref_next_back id (λ _ _, Val ()) dq_ref_use dq_next_ok dq_next_back_ok script (d, dq_mk_iter d) ans d' tr s1 e s2 j f s3 i x). Qed.
  Lemma dq_sb_exact script (d : deque T) ans d' tr : dq_traced script d = Ret ans (d', tr) → Forall answered ans → sb_ok tr ↔ streaming true 0 script.
  Proof. exact (f_sb_exact FlValue dq_b_next dq_b_next_back dq_ref_next dq_ref_next_back id (λ _ _, Val ()) dq_ref_use dq_next_ok dq_next_back_ok script (d, dq_mk_iter d) ans d' tr). Qed.
  Lemma dq_tb_reuse script (d : deque T) ans d' tr s0 j f s1 e s2 g s3 x i y : dq_traced script d = Ret ans (d', tr) → script = s0 ++ HUse j f :: s1 ++ HNext e :: s2 ++ HUse j g :: s3 →
    ans !! length s0 = Some (HFound (Some x)) → ans !! (length s0 + S (length s1)) = Some (HGot (Some i)) →
    ans !! (length s0 + S (length s1 + S (length s2))) = Some (HFound (Some y)) → ¬ tb_ok tr.
  Proof. exact (f_reuse FlValue dq_b_next dq_b_next_back dq_ref_next dq_ref_next_back id (λ _ _, Val ()) dq_ref_use dq_next_ok dq_next_back_ok script (d, dq_mk_iter d) ans d' tr s0 j f s1 e s2 g s3 x i y). Qed.
  Section reach.
    Context (ms : nat) (v : T) (ops : list (dq_op T)).
    Lemma dq_distinct  (script : list (hact T)) : (N.of_nat ms + 1 < W32)%N → few ops → ∃ ans c, dq_held script (dq_after ms v ops) = Ret ans c ∧ NoDup (omap got ans).
    Proof.
    intros Hw Hf. destruct (dq_held_fact ms v ops script Hw Hf) as (es & _ & Hnd & Hh & _). eexists _, _. split; [exact Hh|]. apply held_spec_distinct.
    replace (map fst (omap id _)) with (map fst (omap id (de_spec (asked script) es))); [by apply IterProof.de_spec_NoDup|].
    generalize (de_spec (asked script) es). intros l. induction l as [|[[]|] l IH]; cbn; [done| |done]. by f_equal.
    Qed.
    Lemma dq_tb_phases  (script : list (hact T)) : (N.of_nat ms + 1 < W32)%N → few ops → one_phase script → tb_ok (trace_of (dq_traced script (dq_after ms v ops))).
    Proof.
      intros Hw Hf. intros Ho. destruct (dq_distinct  script Hw Hf) as (ans & c & Hh & Hnd).
      rewrite <- dq_same_run in Hh. apply forgotten in Hh. revert Hh. generalize (trace_of (dq_traced script (dq_after ms v ops))). intros tr Hh. revert Hh.
      set (c0 := (dq_after ms v ops)). intros Hh.
      exact (f_phases FlValue dq_b_next dq_b_next_back dq_ref_next dq_ref_next_back id (λ _ _, Val ()) dq_ref_use dq_next_ok dq_next_back_ok script (c0, dq_mk_iter c0) ans c tr Hh Hnd Ho).
    Qed.
    Lemma dq_tb_exact  script ans c' tr : (N.of_nat ms + 1 < W32)%N → few ops → dq_traced script (dq_after ms v ops) = Ret ans (c', tr) → Forall answered ans → tb_ok tr ↔ one_phase script.
    Proof.
      intros Hw Hf. intros E Ha. destruct (dq_distinct  script Hw Hf) as (ans' & c & Hh & Hnd).
      rewrite <- dq_same_run, E in Hh. cbn in Hh. injection Hh as <- <-. revert E.
      set (c0 := (dq_after ms v ops)). intros E.
      exact (f_tb_exact FlValue dq_b_next dq_b_next_back dq_ref_next dq_ref_next_back id (λ _ _, Val ()) dq_ref_use dq_next_ok dq_next_back_ok script (c0, dq_mk_iter c0) ans _ tr E Ha Hnd).
    Qed.
  End reach.
End deque.

Section ht.
  Context `{Profile} {K V : Type}.
  Lemma ht_same_run (script : list (hact V)) (h : htable K V) : forget (ht_traced script h) = ht_held script h.
  Proof. unfold ht_traced, ht_held. destruct (ht_mk_iter h) as [it|]; [|done]. exact (f_same FlEntry ht_b_next ht_b_next_back ht_ref_next ht_ref_next_back id ht_ref_key ht_ref_use ht_next_ok ht_next_back_ok script (h, it)). Qed.
  Lemma ht_sb_streaming (script : list (hact V)) (h : htable K V) : streaming false 0 script → sb_ok (trace_of (ht_traced script h)).
  Proof. unfold ht_traced. destruct (ht_mk_iter h) as [it|]; [|intros _ l; by eexists]. exact (f_streaming FlEntry ht_b_next ht_b_next_back ht_ref_next ht_ref_next_back id ht_ref_key ht_ref_use ht_next_ok ht_next_back_ok script (h, it)). Qed.
  Lemma ht_sb_late script (h : htable K V) ans h' tr s1 e s2 j f s3 i x : ht_traced script h = Ret ans (h', tr) → script = s1 ++ HNext e :: s2 ++ HUse j f :: s3 → j < calls s1 →
    ans !! length s1 = Some (HGot (Some i)) → ans !! (length s1 + S (length s2)) = Some (HFound (Some x)) → ¬ sb_ok tr.
  Proof. unfold ht_traced. destruct (ht_mk_iter h) as [it|]; [|done]. exact (f_late FlEntry ht_b_next ht_b_next_back ht_ref_next ht_ref_next_back id ht_ref_key ht_ref_use ht_next_ok ht_next_back_ok script (h, it) ans h' tr s1 e s2 j f s3 i x). Qed.
  Lemma ht_sb_late_key script (h : htable K V) ans h' tr s1 e s2 j s3 i x : ht_traced script h = Ret ans (h', tr) → script = s1 ++ HNext e :: s2 ++ HKey j :: s3 → j < calls s1 →
    ans !! length s1 = Some (HGot (Some i)) → ans !! (length s1 + S (length s2)) = Some (HKeyIs (Some x)) → ¬ sb_ok tr.
  Proof. unfold ht_traced. destruct (ht_mk_iter h) as [it|]; [|done]. exact (f_late_key FlEntry ht_b_next ht_b_next_back ht_ref_next ht_ref_next_back id ht_ref_key ht_ref_use ht_next_ok ht_next_back_ok script (h, it) ans h' tr s1 e s2 j s3 i x eq_refl). Qed.
  Lemma ht_sb_exact script (h : htable K V) ans h' tr : ht_traced script h = Ret ans (h', tr) → Forall answered ans → sb_ok tr ↔ streaming false 0 script.
  Proof. unfold ht_traced. destruct (ht_mk_iter h) as [it|]; [|done]. exact (f_sb_exact FlEntry ht_b_next ht_b_next_back ht_ref_next ht_ref_next_back id ht_ref_key ht_ref_use ht_next_ok ht_next_back_ok script (h, it) ans h' tr). Qed.
  Lemma ht_tb_reuse script (h : htable K V) ans h' tr s0 j f s1 e s2 g s3 x i y : ht_traced script h = Ret ans (h', tr) → script = s0 ++ HUse j f :: s1 ++ HNext e :: s2 ++ HUse j g :: s3 →
    ans !! length s0 = Some (HFound (Some x)) → ans !! (length s0 + S (length s1)) = Some (HGot (Some i)) →
    ans !! (length s0 + S (length s1 + S (length s2))) = Some (HFound (Some y)) → ¬ tb_ok tr.
  Proof. unfold ht_traced. destruct (ht_mk_iter h) as [it|]; [|done]. exact (f_reuse FlEntry ht_b_next ht_b_next_back ht_ref_next ht_ref_next_back id ht_ref_key ht_ref_use ht_next_ok ht_next_back_ok script (h, it) ans h' tr s0 j f s1 e s2 g s3 x i y). Qed.
  Section reach.
    Context (keq : K → K → bool) (hash : K → N) (HL : HashLaws keq hash) (nb ms : nat) (d : K * V) (h0 : htable K V).
    Lemma ht_distinct o l (script : list (hact V)) : ht_new nb ms d = Some h0 → 0 < nb → (N.of_nat ms + 1 < W32)%N → ht_holds keq hash ms h0 o l → ∃ ans c, ht_held script (ht_after keq hash h0 o) = Ret ans c ∧ NoDup (omap got ans).
    Proof using HL.
    intros Hnew Hnb Hw Hl. destruct (ht_held_fact keq hash HL nb ms d h0 Hnew Hnb Hw o l script Hl) as (es & _ & _ & Hnd & _ & Hh & _). eexists _, _. split; [exact Hh|]. by apply held_spec_distinct.
    Qed.
    Lemma ht_tb_phases o l (script : list (hact V)) : ht_new nb ms d = Some h0 → 0 < nb → (N.of_nat ms + 1 < W32)%N → ht_holds keq hash ms h0 o l → one_phase script → tb_ok (trace_of (ht_traced script (ht_after keq hash h0 o))).
    Proof using HL.
      intros Hnew Hnb Hw Hl. intros Ho. destruct (ht_distinct o l script Hnew Hnb Hw Hl) as (ans & c & Hh & Hnd).
      rewrite <- ht_same_run in Hh. apply forgotten in Hh. revert Hh. generalize (trace_of (ht_traced script (ht_after keq hash h0 o))). intros tr Hh. revert Hh.
      set (c0 := (ht_after keq hash h0 o)). unfold ht_traced. destruct (ht_mk_iter c0) as [it|]; [|done]. intros Hh.
      exact (f_phases FlEntry ht_b_next ht_b_next_back ht_ref_next ht_ref_next_back id ht_ref_key ht_ref_use ht_next_ok ht_next_back_ok script (c0, it) ans c tr Hh Hnd Ho).
    Qed.
    Lemma ht_tb_exact o l script ans c' tr : ht_new nb ms d = Some h0 → 0 < nb → (N.of_nat ms + 1 < W32)%N → ht_holds keq hash ms h0 o l → ht_traced script (ht_after keq hash h0 o) = Ret ans (c', tr) → Forall answered ans → tb_ok tr ↔ one_phase script.
    Proof using HL.
      intros Hnew Hnb Hw Hl. intros E Ha. destruct (ht_distinct o l script Hnew Hnb Hw Hl) as (ans' & c & Hh & Hnd).
      rewrite <- ht_same_run, E in Hh. cbn in Hh. injection Hh as <- <-. revert E.
      set (c0 := (ht_after keq hash h0 o)). unfold ht_traced. destruct (ht_mk_iter c0) as [it|]; [|done]. intros E.
      exact (f_tb_exact FlEntry ht_b_next ht_b_next_back ht_ref_next ht_ref_next_back id ht_ref_key ht_ref_use ht_next_ok ht_next_back_ok script (c0, it) ans _ tr E Ha Hnd).
    Qed.
  End reach.
End ht.

Section rb.
  Context `{Profile} {K V : Type}.
  Lemma rb_same_run (script : list (hact V)) (t : rbt K V) : forget (rb_traced script t) = rb_held script t.
  Proof. exact (f_same FlEntry (rb_on_traced ti_b_next) (rb_on_traced ti_b_next_back) (rb_on_iter ti_ref_next) (rb_on_iter ti_ref_next_back) id (λ r st, ti_ref_key r (rb_al st.1, st.2)) (λ r f, rb_on_iter (ti_ref_use r f)) (rb_on_contract _ _ ti_next_ok) (rb_on_contract _ _ ti_next_back_ok) script (t, rb_iter t)). Qed.
  Lemma rb_sb_streaming (script : list (hact V)) (t : rbt K V) : streaming false 0 script → sb_ok (trace_of (rb_traced script t)).
  Proof. exact (f_streaming FlEntry (rb_on_traced ti_b_next) (rb_on_traced ti_b_next_back) (rb_on_iter ti_ref_next) (rb_on_iter ti_ref_next_back) id (λ r st, ti_ref_key r (rb_al st.1, st.2)) (λ r f, rb_on_iter (ti_ref_use r f)) (rb_on_contract _ _ ti_next_ok) (rb_on_contract _ _ ti_next_back_ok) script (t, rb_iter t)). Qed.
  Lemma rb_sb_late script (t : rbt K V) ans t' tr s1 e s2 j f s3 i x : rb_traced script t = Ret ans (t', tr) → script = s1 ++ HNext e :: s2 ++ HUse j f :: s3 → j < calls s1 →
    ans !! length s1 = Some (HGot (Some i)) → ans !! (length s1 + S (length s2)) = Some (HFound (Some x)) → ¬ sb_ok tr.
  Proof. exact (f_late FlEntry (rb_on_traced ti_b_next) (rb_on_traced ti_b_next_back) (rb_on_iter ti_ref_next) (rb_on_iter ti_ref_next_back) id (λ r st, ti_ref_key r (rb_al st.1, st.2)) (λ r f, rb_on_iter (ti_ref_use r f)) (rb_on_contract _ _ ti_next_ok) (rb_on_contract _ _ ti_next_back_ok) script (t, rb_iter t) ans t' tr s1 e s2 j f s3 i x). Qed.
  Lemma rb_sb_late_key script (t : rbt K V) ans t' tr s1 e s2 j s3 i x : rb_traced script t = Ret ans (t', tr) → script = s1 ++ HNext e :: s2 ++ HKey j :: s3 → j < calls s1 →
    ans !! length s1 = Some (HGot (Some i)) → ans !! (length s1 + S (length s2)) = Some (HKeyIs (Some x)) → ¬ sb_ok tr.
  Proof. exact (f_late_key FlEntry (rb_on_traced ti_b_next) (rb_on_traced ti_b_next_back) (rb_on_iter ti_ref_next) (rb_on_iter ti_ref_next_back) id (λ r st, ti_ref_key r (rb_al st.1, st.2)) (λ r f, rb_on_iter (ti_ref_use r f)) (rb_on_contract _ _ ti_next_ok) (rb_on_contract _ _ ti_next_back_ok) script (t, rb_iter t) ans t' tr s1 e s2 j s3 i x eq_refl). Qed.
  Lemma rb_sb_exact script (t : rbt K V) ans t' tr : rb_traced script t = Ret ans (t', tr) → Forall answered ans → sb_ok tr ↔ streaming false 0 script.
  Proof. exact (f_sb_exact FlEntry (rb_on_traced ti_b_next) (rb_on_traced ti_b_next_back) (rb_on_iter ti_ref_next) (rb_on_iter ti_ref_next_back) id (λ r st, ti_ref_key r (rb_al st.1, st.2)) (λ r f, rb_on_iter (ti_ref_use r f)) (rb_on_contract _ _ ti_next_ok) (rb_on_contract _ _ ti_next_back_ok) script (t, rb_iter t) ans t' tr). Qed.
  Lemma rb_tb_reuse script (t : rbt K V) ans t' tr s0 j f s1 e s2 g s3 x i y : rb_traced script t = Ret ans (t', tr) → script = s0 ++ HUse j f :: s1 ++ HNext e :: s2 ++ HUse j g :: s3 →
    ans !! length s0 = Some (HFound (Some x)) → ans !! (length s0 + S (length s1)) = Some (HGot (Some i)) →
    ans !! (length s0 + S (length s1 + S (length s2))) = Some (HFound (Some y)) → ¬ tb_ok tr.
  Proof. exact (f_reuse FlEntry (rb_on_traced ti_b_next) (rb_on_traced ti_b_next_back) (rb_on_iter ti_ref_next) (rb_on_iter ti_ref_next_back) id (λ r st, ti_ref_key r (rb_al st.1, st.2)) (λ r f, rb_on_iter (ti_ref_use r f)) (rb_on_contract _ _ ti_next_ok) (rb_on_contract _ _ ti_next_back_ok) script (t, rb_iter t) ans t' tr s0 j f s1 e s2 g s3 x i y). Qed.
  Section reach.
    Context (cmp : K → K → comparison) (HO : OrdLaws cmp) (ms : nat) (d : K * V).
    Lemma rb_distinct o l (script : list (hact V)) : 0 < ms → (N.of_nat ms + 1 < W32)%N → rb_holds cmp ms d o l → ∃ ans c, rb_held script (rb_after cmp ms d o) = Ret ans c ∧ NoDup (omap got ans).
    Proof using HO.
    intros H0 Hw Hl. destruct (rb_held_fact cmp HO ms d H0 Hw o l script Hl) as (es & _ & _ & Hnd & Hh & _). eexists _, _. split; [exact Hh|]. by apply held_spec_distinct.
    Qed.
    Lemma rb_tb_phases o l (script : list (hact V)) : 0 < ms → (N.of_nat ms + 1 < W32)%N → rb_holds cmp ms d o l → one_phase script → tb_ok (trace_of (rb_traced script (rb_after cmp ms d o))).
    Proof using HO.
      intros H0 Hw Hl. intros Ho. destruct (rb_distinct o l script H0 Hw Hl) as (ans & c & Hh & Hnd).
      rewrite <- rb_same_run in Hh. apply forgotten in Hh. revert Hh. generalize (trace_of (rb_traced script (rb_after cmp ms d o))). intros tr Hh. revert Hh.
      set (c0 := (rb_after cmp ms d o)). intros Hh.
      exact (f_phases FlEntry (rb_on_traced ti_b_next) (rb_on_traced ti_b_next_back) (rb_on_iter ti_ref_next) (rb_on_iter ti_ref_next_back) id (λ r st, ti_ref_key r (rb_al st.1, st.2)) (λ r f, rb_on_iter (ti_ref_use r f)) (rb_on_contract _ _ ti_next_ok) (rb_on_contract _ _ ti_next_back_ok) script (c0, rb_iter c0) ans c tr Hh Hnd Ho).
    Qed.
    Lemma rb_tb_exact o l script ans c' tr : 0 < ms → (N.of_nat ms + 1 < W32)%N → rb_holds cmp ms d o l → rb_traced script (rb_after cmp ms d o) = Ret ans (c', tr) → Forall answered ans → tb_ok tr ↔ one_phase script.
    Proof using HO.
      intros H0 Hw Hl. intros E Ha. destruct (rb_distinct o l script H0 Hw Hl) as (ans' & c & Hh & Hnd).
      rewrite <- rb_same_run, E in Hh. cbn in Hh. injection Hh as <- <-. revert E.
      set (c0 := (rb_after cmp ms d o)). intros E.
      exact (f_tb_exact FlEntry (rb_on_traced ti_b_next) (rb_on_traced ti_b_next_back) (rb_on_iter ti_ref_next) (rb_on_iter ti_ref_next_back) id (λ r st, ti_ref_key r (rb_al st.1, st.2)) (λ r f, rb_on_iter (ti_ref_use r f)) (rb_on_contract _ _ ti_next_ok) (rb_on_contract _ _ ti_next_back_ok) script (c0, rb_iter c0) ans _ tr E Ha Hnd).
    Qed.
  End reach.
End rb.

Section av.
  Context `{Profile} {K V : Type}.
  Lemma av_same_run (script : list (hact V)) (t : avlt K V) : forget (av_traced script t) = av_held script t.
  Proof. exact (f_same FlEntry (av_on_traced ti_b_next) (av_on_traced ti_b_next_back) (av_on_iter ti_ref_next) (av_on_iter ti_ref_next_back) id (λ r st, ti_ref_key r (av_al st.1, st.2)) (λ r f, av_on_iter (ti_ref_use r f)) (av_on_contract _ _ ti_next_ok) (av_on_contract _ _ ti_next_back_ok) script (t, av_iter t)). Qed.
  Lemma av_sb_streaming (script : list (hact V)) (t : avlt K V) : streaming false 0 script → sb_ok (trace_of (av_traced script t)).
  Proof. exact (f_streaming FlEntry (av_on_traced ti_b_next) (av_on_traced ti_b_next_back) (av_on_iter ti_ref_next) (av_on_iter ti_ref_next_back) id (λ r st, ti_ref_key r (av_al st.1, st.2)) (λ r f, av_on_iter (ti_ref_use r f)) (av_on_contract _ _ ti_next_ok) (av_on_contract _ _ ti_next_back_ok) script (t, av_iter t)). Qed.
  Lemma av_sb_late script (t : avlt K V) ans t' tr s1 e s2 j f s3 i x : av_traced script t = Ret ans (t', tr) → script = s1 ++ HNext e :: s2 ++ HUse j f :: s3 → j < calls s1 →
    ans !! length s1 = Some (HGot (Some i)) → ans !! (length s1 + S (length s2)) = Some (HFound (Some x)) → ¬ sb_ok tr.
  Proof. exact (f_late FlEntry (av_on_traced ti_b_next) (av_on_traced ti_b_next_back) (av_on_iter ti_ref_next) (av_on_iter ti_ref_next_back) id (λ r st, ti_ref_key r (av_al st.1, st.2)) (λ r f, av_on_iter (ti_ref_use r f)) (av_on_contract _ _ ti_next_ok) (av_on_contract _ _ ti_next_back_ok) script (t, av_iter t) ans t' tr s1 e s2 j f s3 i x). Qed.
  Lemma av_sb_late_key script (t : avlt K V) ans t' tr s1 e s2 j s3 i x : av_traced script t = Ret ans (t', tr) → script = s1 ++ HNext e :: s2 ++ HKey j :: s3 → j < calls s1 →
    ans !! length s1 = Some (HGot (Some i)) → ans !! (length s1 + S (length s2)) = Some (HKeyIs (Some x)) → ¬ sb_ok tr.
  Proof. exact (f_late_key FlEntry (av_on_traced ti_b_next) (av_on_traced ti_b_next_back) (av_on_iter ti_ref_next) (av_on_iter ti_ref_next_back) id (λ r st, ti_ref_key r (av_al st.1, st.2)) (λ r f, av_on_iter (ti_ref_use r f)) (av_on_contract _ _ ti_next_ok) (av_on_contract _ _ ti_next_back_ok) script (t, av_iter t) ans t' tr s1 e s2 j s3 i x eq_refl). Qed.
  Lemma av_sb_exact script (t : avlt K V) ans t' tr : av_traced script t = Ret ans (t', tr) → Forall answered ans → sb_ok tr ↔ streaming false 0 script.
  Proof. exact (f_sb_exact FlEntry (av_on_traced ti_b_next) (av_on_traced ti_b_next_back) (av_on_iter ti_ref_next) (av_on_iter ti_ref_next_back) id (λ r st, ti_ref_key r (av_al st.1, st.2)) (λ r f, av_on_iter (ti_ref_use r f)) (av_on_contract _ _ ti_next_ok) (av_on_contract _ _ ti_next_back_ok) script (t, av_iter t) ans t' tr). Qed.
  Lemma av_tb_reuse script (t : avlt K V) ans t' tr s0 j f s1 e s2 g s3 x i y : av_traced script t = Ret ans (t', tr) → script = s0 ++ HUse j f :: s1 ++ HNext e :: s2 ++ HUse j g :: s3 →
    ans !! length s0 = Some (HFound (Some x)) → ans !! (length s0 + S (length s1)) = Some (HGot (Some i)) →
    ans !! (length s0 + S (length s1 + S (length s2))) = Some (HFound (Some y)) → ¬ tb_ok tr.
  Proof. exact (f_reuse FlEntry (av_on_traced ti_b_next) (av_on_traced ti_b_next_back) (av_on_iter ti_ref_next) (av_on_iter ti_ref_next_back) id (λ r st, ti_ref_key r (av_al st.1, st.2)) (λ r f, av_on_iter (ti_ref_use r f)) (av_on_contract _ _ ti_next_ok) (av_on_contract _ _ ti_next_back_ok) script (t, av_iter t) ans t' tr s0 j f s1 e s2 g s3 x i y). Qed.
  Section reach.
    Context (pcmp : K → K → option comparison) (HO : OrdLaws (po_cmp pcmp)) (ms : nat) (d : K * V).
    Lemma av_distinct o (script : list (hact V)) : 0 < ms → (N.of_nat ms + 1 < W32)%N → ∃ ans c, av_held script (av_after pcmp ms d o) = Ret ans c ∧ NoDup (omap got ans).
    Proof using HO.
    intros H0 Hw. destruct (av_held_fact pcmp HO ms d H0 Hw o script) as (es & _ & _ & Hnd & Hh & _). eexists _, _. split; [exact Hh|]. by apply held_spec_distinct.
    Qed.
    Lemma av_tb_phases o (script : list (hact V)) : 0 < ms → (N.of_nat ms + 1 < W32)%N → one_phase script → tb_ok (trace_of (av_traced script (av_after pcmp ms d o))).
    Proof using HO.
      intros H0 Hw. intros Ho. destruct (av_distinct o script H0 Hw) as (ans & c & Hh & Hnd).
      rewrite <- av_same_run in Hh. apply forgotten in Hh. revert Hh. generalize (trace_of (av_traced script (av_after pcmp ms d o))). intros tr Hh. revert Hh.
      set (c0 := (av_after pcmp ms d o)). intros Hh.
      exact (f_phases FlEntry (av_on_traced ti_b_next) (av_on_traced ti_b_next_back) (av_on_iter ti_ref_next) (av_on_iter ti_ref_next_back) id (λ r st, ti_ref_key r (av_al st.1, st.2)) (λ r f, av_on_iter (ti_ref_use r f)) (av_on_contract _ _ ti_next_ok) (av_on_contract _ _ ti_next_back_ok) script (c0, av_iter c0) ans c tr Hh Hnd Ho).
    Qed.
    Lemma av_tb_exact o script ans c' tr : 0 < ms → (N.of_nat ms + 1 < W32)%N → av_traced script (av_after pcmp ms d o) = Ret ans (c', tr) → Forall answered ans → tb_ok tr ↔ one_phase script.
    Proof using HO.
      intros H0 Hw. intros E Ha. destruct (av_distinct o script H0 Hw) as (ans' & c & Hh & Hnd).
      rewrite <- av_same_run, E in Hh. cbn in Hh. injection Hh as <- <-. revert E.
      set (c0 := (av_after pcmp ms d o)). intros E.
      exact (f_tb_exact FlEntry (av_on_traced ti_b_next) (av_on_traced ti_b_next_back) (av_on_iter ti_ref_next) (av_on_iter ti_ref_next_back) id (λ r st, ti_ref_key r (av_al st.1, st.2)) (λ r f, av_on_iter (ti_ref_use r f)) (av_on_contract _ _ ti_next_ok) (av_on_contract _ _ ti_next_back_ok) script (c0, av_iter c0) ans _ tr E Ha Hnd).
    Qed.
  End reach.
End av.

Section cb.
  Context `{Profile} {V : Type}.
  Lemma cb_same_run (script : list (hact V)) (t : critbit V) : forget (cb_traced script t) = cb_held script t.
  Proof. exact (f_same FlLeaf cb_b_next cb_b_next_back cb_ref_next cb_ref_next_back snd cb_ref_key cb_ref_use cb_next_ok cb_next_back_ok script (t, cb_iter t)). Qed.
  Lemma cb_sb_streaming (script : list (hact V)) (t : critbit V) : streaming true 0 script → sb_ok (trace_of (cb_traced script t)).
  Proof. exact (f_streaming FlLeaf cb_b_next cb_b_next_back cb_ref_next cb_ref_next_back snd cb_ref_key cb_ref_use cb_next_ok cb_next_back_ok script (t, cb_iter t)). Qed.
  Lemma cb_sb_late script (t : critbit V) ans t' tr s1 e s2 j f s3 i x : cb_traced script t = Ret ans (t', tr) → script = s1 ++ HNext e :: s2 ++ HUse j f :: s3 → j < calls s1 →
    ans !! length s1 = Some (HGot (Some i)) → ans !! (length s1 + S (length s2)) = Some (HFound (Some x)) → ¬ sb_ok tr.
  Proof. exact (f_late FlLeaf cb_b_next cb_b_next_back cb_ref_next cb_ref_next_back snd cb_ref_key cb_ref_use cb_next_ok cb_next_back_ok script (t, cb_iter t) ans t' tr s1 e s2 j f s3 i x). Qed.
  Lemma cb_sb_exact script (t : critbit V) ans t' tr : cb_traced script t = Ret ans (t', tr) → Forall answered ans → sb_ok tr ↔ streaming true 0 script.
  Proof. exact (f_sb_exact FlLeaf cb_b_next cb_b_next_back cb_ref_next cb_ref_next_back snd cb_ref_key cb_ref_use cb_next_ok cb_next_back_ok script (t, cb_iter t) ans t' tr). Qed.
  Lemma cb_tb_reuse script (t : critbit V) ans t' tr s0 j f s1 e s2 g s3 x i y : cb_traced script t = Ret ans (t', tr) → script = s0 ++ HUse j f :: s1 ++ HNext e :: s2 ++ HUse j g :: s3 →
    ans !! length s0 = Some (HFound (Some x)) → ans !! (length s0 + S (length s1)) = Some (HGot (Some i)) →
    ans !! (length s0 + S (length s1 + S (length s2))) = Some (HFound (Some y)) → ¬ tb_ok tr.
  Proof. exact (f_reuse FlLeaf cb_b_next cb_b_next_back cb_ref_next cb_ref_next_back snd cb_ref_key cb_ref_use cb_next_ok cb_next_back_ok script (t, cb_iter t) ans t' tr s0 j f s1 e s2 g s3 x i y). Qed.
  Section reach.
    Context (nn ms : nat) (d : V) (t0 : critbit V).
    Lemma cb_distinct o (script : list (hact V)) : 0 < ms → (N.of_nat nn + 1 < W32)%N → cb_new nn ms d = Some t0 → Forall u128_op o → ∃ ans c, cb_held script (history cb_step o t0).2 = Ret ans c ∧ NoDup (omap got ans).
    Proof.
    intros H0 Hw Hnew Hu. destruct (cb_held_fact nn ms d t0 H0 Hw Hnew o script Hu) as (es & _ & _ & Hnd & Hh & _). eexists _, _. split; [exact Hh|]. by apply held_spec_distinct.
    Qed.
    Lemma cb_tb_phases o (script : list (hact V)) : 0 < ms → (N.of_nat nn + 1 < W32)%N → cb_new nn ms d = Some t0 → Forall u128_op o → one_phase script → tb_ok (trace_of (cb_traced script (history cb_step o t0).2)).
    Proof.
      intros H0 Hw Hnew Hu. intros Ho. destruct (cb_distinct o script H0 Hw Hnew Hu) as (ans & c & Hh & Hnd).
      rewrite <- cb_same_run in Hh. apply forgotten in Hh. revert Hh. generalize (trace_of (cb_traced script (history cb_step o t0).2)). intros tr Hh. revert Hh.
      set (c0 := (history cb_step o t0).2). intros Hh.
      exact (f_phases FlLeaf cb_b_next cb_b_next_back cb_ref_next cb_ref_next_back snd cb_ref_key cb_ref_use cb_next_ok cb_next_back_ok script (c0, cb_iter c0) ans c tr Hh Hnd Ho).
    Qed.
    Lemma cb_tb_exact o script ans c' tr : 0 < ms → (N.of_nat nn + 1 < W32)%N → cb_new nn ms d = Some t0 → Forall u128_op o → cb_traced script (history cb_step o t0).2 = Ret ans (c', tr) → Forall answered ans → tb_ok tr ↔ one_phase script.
    Proof.
      intros H0 Hw Hnew Hu. intros E Ha. destruct (cb_distinct o script H0 Hw Hnew Hu) as (ans' & c & Hh & Hnd).
      rewrite <- cb_same_run, E in Hh. cbn in Hh. injection Hh as <- <-. revert E.
      set (c0 := (history cb_step o t0).2). intros E.
      exact (f_tb_exact FlLeaf cb_b_next cb_b_next_back cb_ref_next cb_ref_next_back snd cb_ref_key cb_ref_use cb_next_ok cb_next_back_ok script (c0, cb_iter c0) ans _ tr E Ha Hnd).
    Qed.
  End reach.
End cb.
