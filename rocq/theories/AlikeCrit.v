(** * Containers with the same contents cannot be told apart: the crit-bit tree (for C87) *)
From Verif Require Import AlikeOrd.
From Verif Require Export CritMain AlikeSpec.

Section cb.
  Context `{Profile} {V : Type}.
  Lemma cb_from (nn ms : nat) (d : V) (t0 : critbit V) o1 :
    (0 < ms)%nat → N.of_nat nn + 1 < W32 → cb_new nn ms d = Some t0 → Forall u128_op o1 →
    let t := (history cb_step o1 t0).2 in
    ∃ l, (∀ sc, cb_iterate t sc = Val (de_spec sc l)) ∧
      ∀ o, Forall u128_op o → (history cb_step o t).1 = (spec_history (cb_spec (N.of_nat ms)) o l).1.
  Proof.
    intros H0 Hw Hnew Hu t. destruct (new_ok nn ms d t0 H0 Hw Hnew) as (_ & Hn & Hc).
    destruct (cb_reach nn ms d t0 H0 Hw Hnew o1 Hu) as (_ & E & HE & _). exists E.*2.*2. split.
    - intros sc. exact (iter_facts _ _ _ _ sc HE).
    - intros o Ho. exact (proj1 (cb_history_ok _ _ Hc Hn o t E Ho HE)).
  Qed.
  Lemma cb_cb_fact (nn nn' ms ms' : nat) (d d' : V) (t0 t0' : critbit V) o o' :
    (0 < ms)%nat → N.of_nat nn + 1 < W32 → cb_new nn ms d = Some t0 → Forall u128_op o →
    (0 < ms')%nat → N.of_nat nn' + 1 < W32 → cb_new nn' ms' d' = Some t0' → Forall u128_op o' →
    let t := (history cb_step o t0).2 in let t' := (history cb_step o' t0').2 in
    alike (Forall u128_op) cb_step cb_step t t' ↔ ms = ms' ∧ same_read (cb_iterate t) (cb_iterate t').
  Proof.
    intros H0 Hw Hnew Hu H0' Hw' Hnew' Hu' t t'.
    destruct (cb_from nn ms d t0 o H0 Hw Hnew Hu) as (l & Hl & Ha). destruct (cb_from nn' ms' d' t0' o' H0' Hw' Hnew' Hu') as (l' & Hl' & Ha').
    rewrite (om_alike (Forall u128_op) cb_step cb_step cb_spec (N.of_nat ms) (N.of_nat ms') t t' l l' (cb_iterate t) (cb_iterate t')); [by rewrite Nat2N.inj_iff|done..| | |done|done|done|done].
    - by repeat constructor.
    - intros sc. by repeat constructor.
  Qed.
End cb.
