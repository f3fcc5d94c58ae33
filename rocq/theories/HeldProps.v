(** * C66: references yielded by [iter_mut] may be kept and used later *)
From Verif Require Import DequeProps RBMain AVLMain HashMain CritMain FuzzProof HeldProof HeldSpec HeldMain.

(** A program holds an iterator of [iter_mut] over the collection reached by any history. At each step it asks the iterator at either end, or
    reads the key behind a reference it got earlier, or reads and overwrites the value behind such a reference ([hact]). Each reference then behaves
    as a variable of its own ([held_spec]): what is found behind it is what [iter] would have yielded, as changed through this reference
    only; and the collection ends up as if every reference had been used up at the moment it was yielded ([at_once]). No two of the references
    point to the same slot. No step fails. *)

Section deque.
  Context `{Profile} {T : Type} (ms : nat) (v : T) (ops : list (dq_op T)) (script : list (hact T)).
  (** [es]: the values with their slots, front to back *)
  Theorem C66_dq_held :
    N.of_nat ms + 1 < W32 → few ops →
    ∃ es : list (N * T),
      es.*2 = contents ms ops ∧ NoDup es.*1 ∧
      dq_held script (dq_after ms v ops) =
        Ret (held_spec script (map (option_map (λ e, (e.1, ((), e.2)))) (de_spec (asked script) es)) [])
            (dq_after ms v (ops ++ [DIterMut (at_once 0 script)])) ∧
      ∀ script', dq_iterate script' (dq_after ms v (ops ++ [DIterMut (at_once 0 script)])) =
        Val (de_spec script' (de_mut_spec (λ f e, (e.1, f e.2)) (at_once 0 script) es).2).
  Proof. exact (dq_held_fact ms v ops script). Qed.
End deque.
Print Assumptions C66_dq_held.

Section ht.
  Context `{Profile} {K V : Type} (keq : K → K → bool) (hash : K → N) (HL : HashLaws keq hash) (nb ms : nat) (d : K * V).
  Context (h0 : htable K V) (Hnew : ht_new nb ms d = Some h0) (Hnb : (0 < nb)%nat) (Hw : N.of_nat ms + 1 < W32).
  Notation after := (ht_after keq hash h0).
  (** [es]: the pairs with their slots, in iteration order *)
  Theorem C66_ht_held o l (script : list (hact V)) :
    ht_holds keq hash ms h0 o l →
    ∃ es : list (N * (K * V)),
      es.*2 ≡ₚ l ∧ (∀ i kv, (i, kv) ∈ es → ht_get_addr keq hash (after o) kv.1 = Val i) ∧ NoDup (map fst (omap id (fw_spec (asked script) es))) ∧
      (∀ script', ht_iterate (after o) script' = Val (fw_spec script' es.*2)) ∧
      ht_held script (after o) =
        Ret (held_spec script (fw_spec (asked script) es) []) (after (o ++ [HIterMut (forward_only (at_once 0 script))])) ∧
      ∀ script', ht_iterate (after (o ++ [HIterMut (forward_only (at_once 0 script))])) script' =
        Val (fw_spec script' (fw_mut_spec (λ f e, (e.1, (e.2.1, f e.2.2))) (at_once 0 script) es).2.*2).
  Proof using HL Hnew Hnb Hw. exact (ht_held_fact keq hash HL nb ms d h0 Hnew Hnb Hw o l script). Qed.
End ht.
Print Assumptions C66_ht_held.

Section rb.
  Context `{Profile} {K V : Type} (cmp : K → K → comparison) (HO : OrdLaws cmp) (ms : nat) (d : K * V).
  Context (H0 : (0 < ms)%nat) (Hw : N.of_nat ms + 1 < W32).
  Notation after := (rb_after cmp ms d).
  (** [es]: the pairs with their slots, in key order *)
  Theorem C66_rb_held o l (script : list (hact V)) :
    rb_holds cmp ms d o l →
    ∃ es : list (N * (K * V)),
      es.*2 = l ∧ (∀ i kv, (i, kv) ∈ es → rb_get_addr cmp (after o) kv.1 = Val i) ∧ NoDup (map fst (omap id (de_spec (asked script) es))) ∧
      rb_held script (after o) =
        Ret (held_spec script (de_spec (asked script) es) []) (after (o ++ [Some (MIterMut (at_once 0 script))])) ∧
      ∀ script', rb_iterate (after (o ++ [Some (MIterMut (at_once 0 script))])) script' =
        Val (de_spec script' (de_mut_spec (λ f e, (e.1, (e.2.1, f e.2.2))) (at_once 0 script) es).2.*2).
  Proof using HO H0 Hw. exact (rb_held_fact cmp HO ms d H0 Hw o l script). Qed.
End rb.
Print Assumptions C66_rb_held.

Section av.
  Context `{Profile} {K V : Type} (pcmp : K → K → option comparison) (HO : OrdLaws (po_cmp pcmp)) (ms : nat) (d : K * V).
  Context (H0 : (0 < ms)%nat) (Hw : N.of_nat ms + 1 < W32).
  Notation after := (av_after pcmp ms d).
  Theorem C66_av_held o (script : list (hact V)) :
    ∃ es : list (N * (K * V)),
      es.*2 = (spec_history (om_spec (po_cmp pcmp) (N.of_nat ms)) o []).2 ∧
      (∀ i kv, (i, kv) ∈ es → av_get_addr pcmp (after o) kv.1 = Val i) ∧ NoDup (map fst (omap id (de_spec (asked script) es))) ∧
      av_held script (after o) =
        Ret (held_spec script (de_spec (asked script) es) []) (after (o ++ [MIterMut (at_once 0 script)])) ∧
      ∀ script', av_iterate (after (o ++ [MIterMut (at_once 0 script)])) script' =
        Val (de_spec script' (de_mut_spec (λ f e, (e.1, (e.2.1, f e.2.2))) (at_once 0 script) es).2.*2).
  Proof using HO H0 Hw. exact (av_held_fact pcmp HO ms d H0 Hw o script). Qed.
End av.
Print Assumptions C66_av_held.

Section cb.
  Context `{Profile} {V : Type} (nn ms : nat) (d : V) (t0 : critbit V) (H0 : (0 < ms)%nat) (Hw : N.of_nat nn + 1 < W32)
    (Hnew : cb_new nn ms d = Some t0).
  Notation after o := (history cb_step o t0).2.
  (** [es]: the pairs with their slots in the leaf pool, in key order *)
  Theorem C66_cb_held o (script : list (hact V)) :
    Forall u128_op o →
    ∃ es : list (N * (N * V)),
      es.*2 = cb_contents ms o ∧ (∀ j kv, (j, kv) ∈ es → cb_value_slot (after o) kv.1 = Val j) ∧ NoDup (map fst (omap id (de_spec (asked script) es))) ∧
      cb_held script (after o) =
        Ret (held_spec script (de_spec (asked script) es) []) (after (o ++ [MIterMut (at_once 0 script)])) ∧
      ∀ script', cb_iterate (after (o ++ [MIterMut (at_once 0 script)])) script' =
        Val (de_spec script' (de_mut_spec (λ f e, (e.1, (e.2.1, f e.2.2))) (at_once 0 script) es).2.*2).
  Proof using H0 Hw Hnew. exact (cb_held_fact nn ms d t0 H0 Hw Hnew o script). Qed.
End cb.
Print Assumptions C66_cb_held.

(** ** Examples: three references are fetched from both ends, a fourth call yields none, and only then are they used, in another order, one of
    them twice and one of them before the iterator is asked again *)
Local Instance ex_profile : Profile := {| overflow_checks := true |}.
Definition ex_script : list (hact N) :=
  [HNext Bwd; HNext Fwd; HUse 1 (N.add 100); HNext Bwd; HNext Fwd; HUse 2 (λ _, 7); HUse 0 (N.mul 2); HKey 0; HUse 1 N.succ; HUse 1 (λ v, v);
   HUse 3 N.succ].
Local Notation ops := [MInsert 5 50; MInsert 3 30; MInsert 9 90; MInsert 4 40; MRemove 4].
Local Notation answers a b c :=
  [HGot (Some a); HGot (Some b); HFound (Some 30); HGot (Some c); HGot None; HFound (Some 50); HFound (Some 90); HKeyIs (Some 9);
   HFound (Some 130); HFound (Some 131); HFound None].
Example C66_rb_ex :
  rb_holds N.compare 5 (0, 0) (Some <$> ops) [(3, 30); (5, 50); (9, 90)] ∧
  (∃ t, rb_held ex_script (rb_after N.compare 5 (0, 0) (Some <$> ops)) = Ret (answers 3 2 1) t ∧
        rb_iterate t [Fwd; Fwd; Fwd] = Val [Some (3, 131); Some (5, 7); Some (9, 180)]).
Proof. split; [unfold rb_holds; rewrite om_run_ops; by vm_compute|eexists; split; by vm_compute]. Qed.
Example C66_av_ex :
  ∃ t, av_held ex_script (av_after (λ a b, Some (N.compare a b)) 5 (0, 0) ops) = Ret (answers 3 2 1) t ∧
       av_iterate t [Fwd; Fwd; Fwd] = Val [Some (3, 131); Some (5, 7); Some (9, 180)].
Proof. eexists; split; by vm_compute. Qed.
Example C66_dq_ex :
  ∃ d, dq_held ex_script (dq_after 5 0 [DPushBack 50; DPushBack 90; DPushFront 30]) =
         Ret [HGot (Some 2); HGot (Some 3); HFound (Some 30); HGot (Some 1); HGot None; HFound (Some 50); HFound (Some 90); HKeyIs (Some ());
              HFound (Some 130); HFound (Some 131); HFound None] d ∧
       dq_iterate [Fwd; Fwd; Fwd] d = Val [Some (3, 131); Some (1, 7); Some (2, 180)].
Proof. eexists; split; by vm_compute. Qed.
Example C66_cb_ex :
  match cb_new 10 5 0 with
  | Some t0 => Forall u128_op ops ∧
      ∃ t, cb_held ex_script (history cb_step ops t0).2 = Ret (answers 3 2 1) t ∧
           cb_iterate t [Fwd; Fwd; Fwd] = Val [Some (3, 131); Some (5, 7); Some (9, 180)]
  | None => False
  end.
Proof. split; [repeat constructor; by vm_compute|eexists; split; by vm_compute]. Qed.
(** HashTable: [next_back] yields nothing (C16) *)
Example C66_ht_ex :
  match ht_new 2 5 (0, 0) with
  | Some h0 =>
      ∃ t, ht_held [HNext Fwd; HNext Fwd; HNext Bwd; HUse 1 (N.add 100); HNext Fwd; HUse 2 N.succ; HUse 0 (λ _, 7); HKey 3; HUse 1 N.succ; HUse 0 (λ v, v)]
             (ht_after N.eqb (λ k, k) h0 [HInsert 5 50; HInsert 3 30; HInsert 8 80]) =
           Ret [HGot (Some 3); HGot (Some 2); HGot None; HFound (Some 30); HGot (Some 1); HFound None; HFound (Some 80); HKeyIs (Some 5); HFound (Some 130);
                HFound (Some 7)] t ∧
         ht_iterate t [Fwd; Fwd; Fwd] = Val [Some (8, 7); Some (3, 131); Some (5, 50)]
  | None => False
  end.
Proof. eexists; split; by vm_compute. Qed.
