(** * Keeping references: after any history *)
From Verif Require Import DequeProps RBMain AVLMain HashMain CritMain FuzzProof HeldProof HeldSpec.

Lemma at_once_asked {V} n (script : list (hact V)) : (at_once n script).*1 = asked script.
Proof. revert n. induction script as [|[] script IH]; intros n; simpl; [done| |..]; by rewrite IH. Qed.

Section deque.
  Context `{Profile} {T : Type} (ms : nat) (v : T) (ops : list (dq_op T)) (script : list (hact T)).
  Lemma dq_held_fact :
    N.of_nat ms + 1 < W32 → few ops →
    ∃ es : list (N * T),
      es.*2 = contents ms ops ∧ NoDup es.*1 ∧
      dq_held script (dq_after ms v ops) =
        Ret (held_spec script (map (option_map (λ e, (e.1, ((), e.2)))) (de_spec (asked script) es)) [])
            (dq_after ms v (ops ++ [DIterMut (at_once 0 script)])) ∧
      ∀ script', dq_iterate script' (dq_after ms v (ops ++ [DIterMut (at_once 0 script)])) =
        Val (de_spec script' (de_mut_spec (λ f e, (e.1, f e.2)) (at_once 0 script) es).2).
  Proof.
    intros Hw Hf. destruct (C10_deque_iter_mut ms v ops (at_once 0 script) Hw Hf) as (es & d' & He & Hnd & Hm).
    pose proof (de_mut_spec_out (λ f (e : N * T), (e.1, f e.2)) (at_once 0 script) es) as Hout.
    destruct (de_mut_spec _ _ _) as [out es'] eqn:E. cbn [fst snd] in *. destruct Hm as (Hi & Hn & _ & _ & _ & Hit).
    assert (dq_after ms v (ops ++ [DIterMut (at_once 0 script)]) = d') as ->.
    { unfold dq_after in *. rewrite history_snoc'. unfold call. simpl. unfold mbind, M_bind. by rewrite Hi. }
    exists es. split_and!; [done|done| |by rewrite E].
    rewrite at_once_asked in Hout. rewrite <- Hout. apply dq_held_ok; [|done|done].
    destruct (after_inv ms v ops Hw Hf) as (es2 & Hok & _). unfold small, dq_after.
    destruct (d_heap _ _ _ Hok) as (fr & Ho & _). rewrite (ok_cap _ _ _ _ _ Ho). lia.
  Qed.
End deque.

Section rb.
  Context `{Profile} {K V : Type} (cmp : K → K → comparison) (HO : OrdLaws cmp) (ms : nat) (d : K * V).
  Context (H0 : (0 < ms)%nat) (Hw : N.of_nat ms + 1 < W32).
  Notation after := (rb_after cmp ms d).
  Lemma rb_held_fact o l (script : list (hact V)) :
    rb_holds cmp ms d o l →
    ∃ es : list (N * (K * V)),
      es.*2 = l ∧ (∀ i kv, (i, kv) ∈ es → rb_get_addr cmp (after o) kv.1 = Val i) ∧ NoDup (map fst (omap id (de_spec (asked script) es))) ∧
      rb_held script (after o) =
        Ret (held_spec script (de_spec (asked script) es) []) (after (o ++ [Some (MIterMut (at_once 0 script))])) ∧
      ∀ script', rb_iterate (after (o ++ [Some (MIterMut (at_once 0 script))])) script' =
        Val (de_spec script' (de_mut_spec (λ f e, (e.1, (e.2.1, f e.2.2))) (at_once 0 script) es).2.*2).
  Proof using HO H0 Hw.
    intros Hl. destruct (rb_iter_mut_fact cmp HO ms d H0 Hw o l (at_once 0 script) Hl) as (es & t' & He & Ha & Hm).
    pose proof (de_mut_spec_out (λ f (e : N * (K * V)), (e.1, (e.2.1, f e.2.2))) (at_once 0 script) es) as Hout.
    destruct (de_mut_spec _ _ _) as [out es'] eqn:E. cbn [fst snd] in *. destruct Hm as (Hi & Hn & _ & _ & _ & _ & _ & _ & Hit).
    assert (after (o ++ [Some (MIterMut (at_once 0 script))]) = t') as ->.
    { unfold rb_after in *. rewrite history_snoc'. unfold call. simpl. unfold mbind, M_bind. by rewrite Hi. }
    exists es. rewrite at_once_asked in Hout. rewrite <- Hout. split_and!; [done|done|done| |by rewrite E].
    apply rb_held_ok; [|done|done].
    destruct (rb_reach' cmp HO ms d o l H0 Hw Hl) as (U & Hok & _). unfold small.
    pose proof (RBOps.rep_cap (N.of_nat ms) _ _ (rbok_rep _ _ _ _ Hok)) as Hc. unfold rb_capacity in Hc. rewrite Hc. lia.
  Qed.
End rb.

Section av.
  Context `{Profile} {K V : Type} (pcmp : K → K → option comparison) (HO : OrdLaws (po_cmp pcmp)) (ms : nat) (d : K * V).
  Context (H0 : (0 < ms)%nat) (Hw : N.of_nat ms + 1 < W32).
  Notation after := (av_after pcmp ms d).
  Lemma av_held_fact o (script : list (hact V)) :
    ∃ es : list (N * (K * V)),
      es.*2 = (spec_history (om_spec (po_cmp pcmp) (N.of_nat ms)) o []).2 ∧
      (∀ i kv, (i, kv) ∈ es → av_get_addr pcmp (after o) kv.1 = Val i) ∧ NoDup (map fst (omap id (de_spec (asked script) es))) ∧
      av_held script (after o) =
        Ret (held_spec script (de_spec (asked script) es) []) (after (o ++ [MIterMut (at_once 0 script)])) ∧
      ∀ script', av_iterate (after (o ++ [MIterMut (at_once 0 script)])) script' =
        Val (de_spec script' (de_mut_spec (λ f e, (e.1, (e.2.1, f e.2.2))) (at_once 0 script) es).2.*2).
  Proof using HO H0 Hw.
    destruct (av_iter_mut_fact pcmp HO ms d H0 Hw o (at_once 0 script)) as (es & t' & He & Ha & Hm).
    pose proof (de_mut_spec_out (λ f (e : N * (K * V)), (e.1, (e.2.1, f e.2.2))) (at_once 0 script) es) as Hout.
    destruct (de_mut_spec _ _ _) as [out es'] eqn:E. cbn [fst snd] in *. destruct Hm as (Hi & Hn & _ & _ & _ & _ & _ & _ & Hit).
    assert (after (o ++ [MIterMut (at_once 0 script)]) = t') as ->.
    { unfold av_after in *. rewrite history_snoc'. set (s0 := (history _ o _).2) in *. unfold call, av_step. simpl. unfold mbind, M_bind. by rewrite Hi. }
    exists es. rewrite at_once_asked in Hout. rewrite <- Hout. split_and!; [done|done|done| |by rewrite E].
    apply av_held_ok; [|done|done].
    destruct (av_reach pcmp HO ms d H0 Hw o) as (U & Hok & _). unfold small.
    pose proof (AVLOps.rep_cap (N.of_nat ms) _ _ (avok_rep _ _ _ _ Hok)) as Hc. unfold av_capacity in Hc. rewrite Hc. lia.
  Qed.
End av.

Lemma drive_mut_forward {S A V} (next next_back : (V → V) → M S (option A)) script s out s' :
  (∀ f s, next_back f s = Ret None s) →
  drive_mut next next_back script s = Ret out s' →
  ∃ out', drive_mut next next_back (map (λ f, (Fwd, f)) (forward_only script)) s = Ret out' s'.
Proof.
  intros Hb. revert s out. induction script as [|[[] f] script IH]; intros s out; simpl; unfold mbind, M_bind.
  - intros [= _ <-]. by eexists.
  - destruct (next f s) as [a s1|]; [|done]. destruct (drive_mut _ _ script s1) as [o s2|] eqn:E; [|done]. intros [= <- <-].
    destruct (IH _ _ E) as [o' Ho']. rewrite Ho'. by eexists.
  - rewrite Hb. destruct (drive_mut _ _ script s) as [o s2|] eqn:E; [|done]. intros [= <- <-]. by eapply IH.
Qed.

Section ht.
  Context `{Profile} {K V : Type} (keq : K → K → bool) (hash : K → N) (HL : HashLaws keq hash) (nb ms : nat) (d : K * V).
  Context (h0 : htable K V) (Hnew : ht_new nb ms d = Some h0) (Hnb : (0 < nb)%nat) (Hw : N.of_nat ms + 1 < W32).
  Notation after := (ht_after keq hash h0).
  Lemma ht_held_fact o l (script : list (hact V)) :
    ht_holds keq hash ms h0 o l →
    ∃ es : list (N * (K * V)),
      es.*2 ≡ₚ l ∧ (∀ i kv, (i, kv) ∈ es → ht_get_addr keq hash (after o) kv.1 = Val i) ∧ NoDup (map fst (omap id (fw_spec (asked script) es))) ∧
      (∀ script', ht_iterate (after o) script' = Val (fw_spec script' es.*2)) ∧
      ht_held script (after o) =
        Ret (held_spec script (fw_spec (asked script) es) []) (after (o ++ [HIterMut (forward_only (at_once 0 script))])) ∧
      ∀ script', ht_iterate (after (o ++ [HIterMut (forward_only (at_once 0 script))])) script' =
        Val (fw_spec script' (fw_mut_spec (λ f e, (e.1, (e.2.1, f e.2.2))) (at_once 0 script) es).2.*2).
  Proof using HL Hnew Hnb Hw.
    intros Hl. destruct (ht_iter_mut_fact keq hash HL nb ms d h0 Hnew Hnb Hw o l (at_once 0 script) Hl) as (es & t' & He & Ha & Hit0 & Hm).
    pose proof (fw_mut_spec_out (λ f (e : N * (K * V)), (e.1, (e.2.1, f e.2.2))) (at_once 0 script) es) as Hout.
    destruct (fw_mut_spec _ _ _) as [out es'] eqn:E. cbn [fst snd] in *. destruct Hm as (Hi & Hn & _ & _ & _ & _ & Hit).
    assert (after (o ++ [HIterMut (forward_only (at_once 0 script))]) = t') as ->.
    { unfold ht_after in *. rewrite history_snoc'. unfold call. simpl. unfold mbind, M_bind.
      unfold ht_iterate_mut in *. destruct (ht_mk_iter _) as [it|]; [|done].
      destruct (drive_mut _ _ (at_once 0 script) _) as [a [h1 it1]|] eqn:Ed; [|by destruct s]. injection Hi as -> ->.
      destruct (drive_mut_forward ht_iter_mut_next ht_iter_mut_next_back _ _ _ _ (λ _ _, eq_refl) Ed) as [out' ->]. done. }
    exists es. rewrite at_once_asked in Hout. rewrite <- Hout. split_and!; [done|done|done|done| |by rewrite E].
    apply ht_held_ok; [|done|done].
    destruct (ht_reach keq hash HL nb ms d h0 Hnew Hnb Hw o l Hl) as (E0 & Hok & _). unfold small.
    pose proof (HI_capacity _ _ _ _ _ Hok) as Hc. unfold ht_capacity in Hc. rewrite Hc. lia.
  Qed.
End ht.

Section cb.
  Context `{Profile} {V : Type} (nn ms : nat) (d : V) (t0 : critbit V) (H0 : (0 < ms)%nat) (Hw : N.of_nat nn + 1 < W32)
    (Hnew : cb_new nn ms d = Some t0).
  Notation after o := (history cb_step o t0).2.
  Lemma cb_held_fact o (script : list (hact V)) :
    Forall u128_op o →
    ∃ es : list (N * (N * V)),
      es.*2 = cb_contents ms o ∧ (∀ j kv, (j, kv) ∈ es → cb_value_slot (after o) kv.1 = Val j) ∧ NoDup (map fst (omap id (de_spec (asked script) es))) ∧
      cb_held script (after o) =
        Ret (held_spec script (de_spec (asked script) es) []) (after (o ++ [MIterMut (at_once 0 script)])) ∧
      ∀ script', cb_iterate (after (o ++ [MIterMut (at_once 0 script)])) script' =
        Val (de_spec script' (de_mut_spec (λ f e, (e.1, (e.2.1, f e.2.2))) (at_once 0 script) es).2.*2).
  Proof using H0 Hw Hnew.
    intros Hu. destruct (cb_iter_mut_fact nn ms d t0 H0 Hw Hnew o Hu (at_once 0 script)) as (es & t' & He & Ha & Hm).
    pose proof (de_mut_spec_out (λ f (e : N * (N * V)), (e.1, (e.2.1, f e.2.2))) (at_once 0 script) es) as Hout.
    destruct (de_mut_spec _ _ _) as [out es'] eqn:E. cbn [fst snd] in *. destruct Hm as (Hi & Hn & _ & _ & _ & _ & _ & Hit).
    assert (after (o ++ [MIterMut (at_once 0 script)]) = t') as ->.
    { rewrite history_snoc'. set (s0 := (history _ o _).2) in *. unfold call, cb_step. simpl. unfold mbind, M_bind. by rewrite Hi. }
    exists es. rewrite at_once_asked in Hout. rewrite <- Hout. split_and!; [done|done|done| |by rewrite E].
    apply cb_held_ok; [|done|done].
    destruct (cb_reach nn ms d t0 H0 Hw Hnew o Hu) as (_ & E0 & Hok & _). unfold small.
    destruct (len_facts _ _ _ _ Hok) as [_ Hc]. unfold cb_capacity in Hc. rewrite Hc.
    unfold cb_new in Hnew. destruct (decide _); [|done]. lia.
  Qed.
End cb.
