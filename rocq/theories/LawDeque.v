(** * The two ends of the deque do not meet (for C88) *)
From Verif Require Import DequeApi UndoDeque AlikeHash LawOm.
From Verif Require Export AlikeSpec LawSpec.


Local Ltac go P1 P2 P3 P4 P5 P6 P7 P8 L1 L2 := repeat first
  [rewrite P4|rewrite P3|rewrite P6|rewrite P5|rewrite P7|rewrite P8|rewrite P1 by (rewrite ?L1, ?L2; lia)|rewrite P2 by (rewrite ?L1, ?L2; lia)|progress cbn [app]]; done.

Section dq.
  Context {T : Type}.
  Notation sp cap := (dq_spec (T:=T) cap).
  Lemma two_ends cap (a b : dq_op T) l n :
    at_front a → at_back b → lengthN l + (dq_needs a + dq_needs b) ≤ cap → dq_wants a + dq_wants b ≤ lengthN l →
    (spec_history (sp cap) [a; b] (l, n)).2 = (spec_history (sp cap) [b; a] (l, n)).2 ∧
    (spec_history (sp cap) [a; b] (l, n)).1 = rev (spec_history (sp cap) [b; a] (l, n)).1.
  Proof.
    intros Ha Hb Hr Hw. cbn [spec_history].
    assert (∀ v m, lengthN (v :: m : list T) = lengthN m + 1) as L1 by (intros; unfold lengthN; cbn; lia).
    assert (∀ v m, lengthN (m ++ [v] : list T) = lengthN m + 1) as L2 by (intros; unfold lengthN; rewrite app_length; cbn; lia).
    assert (∀ cap m v n, lengthN m + 1 ≤ cap → sp cap (DPushFront v) (m, n) = (Val DUnit, (v :: m, n + 1))) as P1 by (intros; cbn; by rewrite decide_True by lia).
    assert (∀ cap m v n, lengthN m + 1 ≤ cap → sp cap (DPushBack v) (m, n) = (Val DUnit, (m ++ [v], n + 1))) as P2 by (intros; cbn; by rewrite decide_True by lia).
    assert (∀ cap m z n, sp cap DPopBack (m ++ [z], n) = (Val (DVal (Some z)), (m, n + 1))) as P3 by (intros; cbn; by rewrite unsnoc_snoc).
    assert (∀ cap m v z n, sp cap DPopBack (v :: m ++ [z], n) = (Val (DVal (Some z)), (v :: m, n + 1))) as P4 by (intros; apply (P3 _ (_ :: _))).
    assert (∀ cap m z n, sp cap DBack (m ++ [z], n) = (Val (DVal (Some z)), (m ++ [z], n))) as P5 by (intros; cbn; by rewrite last_snoc).
    assert (∀ cap m v z n, sp cap DBack (v :: m ++ [z], n) = (Val (DVal (Some z)), (v :: m ++ [z], n))) as P6 by (intros; apply (P5 _ (_ :: _))).
    assert (∀ cap m z n, sp cap DPopFront (z :: m, n) = (Val (DVal (Some z)), (m, n + 1))) as P7 by done.
    assert (∀ cap m z n, sp cap DFront (z :: m, n) = (Val (DVal (Some z)), (z :: m, n))) as P8 by done.
    destruct a as [v|v| | | | | | | |]; try done; destruct b as [w|w| | | | | | | |]; try done; cbn [dq_needs dq_wants] in *.
    - go P1 P2 P3 P4 P5 P6 P7 P8 L1 L2.
    - destruct l as [|z l _] using rev_ind; [cbn in Hw; lia|]. rewrite L2 in Hr. go P1 P2 P3 P4 P5 P6 P7 P8 L1 L2.
    - destruct l as [|z l _] using rev_ind; [cbn in Hw; lia|]. rewrite L2 in Hr. go P1 P2 P3 P4 P5 P6 P7 P8 L1 L2.
    - destruct l as [|z l]; [cbn in Hw; lia|]. rewrite L1 in Hr. go P1 P2 P3 P4 P5 P6 P7 P8 L1 L2.
    - destruct l as [|z l]; [cbn in Hw; lia|]. destruct l as [|z' l _] using rev_ind; [cbn in Hw; lia|]. go P1 P2 P3 P4 P5 P6 P7 P8 L1 L2.
    - destruct l as [|z l]; [cbn in Hw; lia|]. destruct l as [|z' l _] using rev_ind; [cbn in Hw; lia|]. go P1 P2 P3 P4 P5 P6 P7 P8 L1 L2.
    - destruct l as [|z l]; [cbn in Hw; lia|]. rewrite L1 in Hr. go P1 P2 P3 P4 P5 P6 P7 P8 L1 L2.
    - destruct l as [|z l]; [cbn in Hw; lia|]. destruct l as [|z' l _] using rev_ind; [cbn in Hw; lia|]. go P1 P2 P3 P4 P5 P6 P7 P8 L1 L2.
  Qed.
  Lemma dq_ends_fact `{Profile} (ms : nat) (v0 : T) (o1 : list (dq_op T)) a b :
    N.of_nat ms + 1 < W32 → (overflow_checks = true → lengthN o1 + 2 < W64) → at_front a → at_back b →
    let d := (history dq_step o1 (dq_new ms v0)).2 in
    dq_len d + (dq_needs a + dq_needs b) ≤ N.of_nat ms → dq_wants a + dq_wants b ≤ dq_len d →
    alike (λ c, overflow_checks = true → lengthN o1 + 2 + lengthN c < W64) dq_step dq_step (history dq_step [a; b] d).2 (history dq_step [b; a] d).2 ∧
    (history dq_step [a; b] d).1 = rev (history dq_step [b; a] d).1.
  Proof.
    intros Hw F Ha Hb d Hr Hn. destruct (dq_from ms v0 o1 Hw) as (l & Hl & _ & Hs); [intros Hc; specialize (F Hc); lia|]. fold d in Hs.
    assert (dq_len d = lengthN l) as Hlen.
    { assert ((history dq_step [DLen] d).1 = (spec_history (sp (N.of_nat ms)) [DLen] (l, 0)).1) as He; [|by injection He].
      apply Hs. intros Hc. specialize (F Hc). change (lengthN [DLen]) with 1. lia. }
    rewrite Hlen in *. destruct (two_ends (N.of_nat ms) a b l 0 Ha Hb Hr Hn) as [H1 H2]. split.
    - intros c Hc. assert (∀ x, lengthN x = 2 → (history dq_step c (history dq_step x d).2).1 = (spec_history (sp (N.of_nat ms)) c (spec_history (sp (N.of_nat ms)) x (l, 0)).2).1) as Hx.
      { intros x Hx. apply (states_after (few (lengthN o1))); [done|]. intros Ho. specialize (Hc Ho). rewrite lengthN_app. lia. }
      rewrite !Hx, H1 by done. done.
    - rewrite !Hs, H2 by (intros Hc; specialize (F Hc); change (lengthN [a; b]) with 2 || change (lengthN [b; a]) with 2; lia). done.
  Qed.
End dq.
