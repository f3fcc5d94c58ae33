(** * C88: calculating with calls *)
From Verif Require Import Spec RBMain AVLMain CritMain HashMain DequeApi LawSpec LawOm LawMaps LawCrit LawHash LawDeque.

(** [om_law same tight room x y] (LawSpec.v) lists laws like "insert and then insert for the same key is one insert". In each theorem the
    container has seen any history; the calls [x] and the calls [y] leave two states that no later calls can tell apart. *)
Theorem C88_rb_law `{Profile} {K V : Type} (cmp : K → K → comparison) (ms : nat) (d : K * V) (o : list (option (om_op K V))) (x y : list (om_op K V)) :
  OrdLaws cmp → (0 < ms)%nat → N.of_nat ms + 1 < W32 →
  let step := om_step (rb_api cmp) in let t := (history (rb_step cmp) o (rb_new ms d)).2 in
  om_law (λ a b, cmp a b = Eq) false (N.of_nat ms - rb_len t) x y → alike any step step (history step x t).2 (history step y t).2.
Proof. intros HO H0 Hw. exact (rb_law_fact cmp ms d HO H0 Hw o x y). Qed.
(** Calls about different keys, as many as there is room for: each gets the answer it would get alone, *)
Theorem C88_rb_alone `{Profile} {K V : Type} (cmp : K → K → comparison) (ms : nat) (d : K * V) (o : list (option (om_op K V))) (x : list (om_op K V)) :
  OrdLaws cmp → (0 < ms)%nat → N.of_nat ms + 1 < W32 →
  let step := om_step (rb_api cmp) in let t := (history (rb_step cmp) o (rb_new ms d)).2 in
  apart (λ a b, cmp a b = Eq) om_key x → rb_len t + total om_needs x ≤ N.of_nat ms →
  (history step x t).1 = map (λ o, (call (step o) t).1) x.
Proof. intros HO H0 Hw. exact (rb_alone_fact cmp ms d HO H0 Hw o x). Qed.
(** and the order in which they are made does not matter *)
Theorem C88_rb_any_order `{Profile} {K V : Type} (cmp : K → K → comparison) (ms : nat) (d : K * V) (o : list (option (om_op K V)))
    (x y : list (om_op K V)) :
  OrdLaws cmp → (0 < ms)%nat → N.of_nat ms + 1 < W32 →
  let step := om_step (rb_api cmp) in let t := (history (rb_step cmp) o (rb_new ms d)).2 in
  x ≡ₚ y → apart (λ a b, cmp a b = Eq) om_key x → rb_len t + total om_needs x ≤ N.of_nat ms →
  alike any step step (history step x t).2 (history step y t).2.
Proof. intros HO H0 Hw. exact (rb_perm_fact cmp ms d HO H0 Hw o x y). Qed.
Print Assumptions C88_rb_law.
Print Assumptions C88_rb_alone.
Print Assumptions C88_rb_any_order.

Theorem C88_av_law `{Profile} {K V : Type} (pcmp : K → K → option comparison) (ms : nat) (d : K * V) (o x y : list (om_op K V)) :
  OrdLaws (po_cmp pcmp) → (0 < ms)%nat → N.of_nat ms + 1 < W32 →
  let step := av_step pcmp in let t := (history step o (av_new ms d)).2 in
  om_law (λ a b, po_cmp pcmp a b = Eq) false (N.of_nat ms - av_len t) x y → alike any step step (history step x t).2 (history step y t).2.
Proof. intros HO H0 Hw. exact (av_law_fact pcmp ms d HO H0 Hw o x y). Qed.
Theorem C88_av_alone `{Profile} {K V : Type} (pcmp : K → K → option comparison) (ms : nat) (d : K * V) (o x : list (om_op K V)) :
  OrdLaws (po_cmp pcmp) → (0 < ms)%nat → N.of_nat ms + 1 < W32 →
  let step := av_step pcmp in let t := (history step o (av_new ms d)).2 in
  apart (λ a b, po_cmp pcmp a b = Eq) om_key x → av_len t + total om_needs x ≤ N.of_nat ms →
  (history step x t).1 = map (λ o, (call (step o) t).1) x.
Proof. intros HO H0 Hw. exact (av_alone_fact pcmp ms d HO H0 Hw o x). Qed.
Theorem C88_av_any_order `{Profile} {K V : Type} (pcmp : K → K → option comparison) (ms : nat) (d : K * V) (o x y : list (om_op K V)) :
  OrdLaws (po_cmp pcmp) → (0 < ms)%nat → N.of_nat ms + 1 < W32 →
  let step := av_step pcmp in let t := (history step o (av_new ms d)).2 in
  x ≡ₚ y → apart (λ a b, po_cmp pcmp a b = Eq) om_key x → av_len t + total om_needs x ≤ N.of_nat ms →
  alike any step step (history step x t).2 (history step y t).2.
Proof. intros HO H0 Hw. exact (av_perm_fact pcmp ms d HO H0 Hw o x y). Qed.
Print Assumptions C88_av_law.
Print Assumptions C88_av_alone.
Print Assumptions C88_av_any_order.

(** Critbit is [tight]: on a full map it refuses to overwrite *)
Theorem C88_cb_law `{Profile} {V : Type} (nn ms : nat) (d : V) (t0 : critbit V) (o x y : list (om_op N V)) :
  (0 < ms)%nat → N.of_nat nn + 1 < W32 → cb_new nn ms d = Some t0 → Forall u128_op o →
  let t := (history cb_step o t0).2 in
  Forall u128_op (x ++ y) → om_law (λ a b, N.compare a b = Eq) true (N.of_nat ms - cb_len t) x y →
  alike (Forall u128_op) cb_step cb_step (history cb_step x t).2 (history cb_step y t).2.
Proof. intros H0 Hw Hnew Hu. exact (cb_law_fact nn ms d t0 H0 Hw Hnew o Hu x y). Qed.
Theorem C88_cb_alone `{Profile} {V : Type} (nn ms : nat) (d : V) (t0 : critbit V) (o x : list (om_op N V)) :
  (0 < ms)%nat → N.of_nat nn + 1 < W32 → cb_new nn ms d = Some t0 → Forall u128_op o →
  let t := (history cb_step o t0).2 in
  Forall u128_op x → apart (λ a b, N.compare a b = Eq) om_key x → cb_len t + total om_needs x ≤ N.of_nat ms →
  (history cb_step x t).1 = map (λ o, (call (cb_step o) t).1) x.
Proof. intros H0 Hw Hnew Hu. exact (cb_alone_fact nn ms d t0 H0 Hw Hnew o Hu x). Qed.
Theorem C88_cb_any_order `{Profile} {V : Type} (nn ms : nat) (d : V) (t0 : critbit V) (o x y : list (om_op N V)) :
  (0 < ms)%nat → N.of_nat nn + 1 < W32 → cb_new nn ms d = Some t0 → Forall u128_op o →
  let t := (history cb_step o t0).2 in
  Forall u128_op x → x ≡ₚ y → apart (λ a b, N.compare a b = Eq) om_key x → cb_len t + total om_needs x ≤ N.of_nat ms →
  alike (Forall u128_op) cb_step cb_step (history cb_step x t).2 (history cb_step y t).2.
Proof. intros H0 Hw Hnew Hu. exact (cb_perm_fact nn ms d t0 H0 Hw Hnew o Hu x y). Qed.
Print Assumptions C88_cb_law.
Print Assumptions C88_cb_alone.
Print Assumptions C88_cb_any_order.

(** The hash table: for all later calls but iteration *)
Theorem C88_ht_law `{Profile} {K V : Type} (keq : K → K → bool) (hash : K → N) (nb ms : nat) (d : K * V) (h0 : htable K V) (o x y : list (hm_op K V)) :
  HashLaws keq hash → ht_new nb ms d = Some h0 → (0 < nb)%nat → N.of_nat ms + 1 < W32 →
  let step := ht_step keq hash in let h := (history step o h0).2 in
  hm_law (λ a b, keq a b = true) (N.of_nat ms - ht_len h) x y → alike (Forall no_iter) step step (history step x h).2 (history step y h).2.
Proof. intros HL Hnew Hnb Hw. exact (ht_law_fact keq hash HL nb ms d h0 Hnew Hnb Hw o x y). Qed.
Theorem C88_ht_alone `{Profile} {K V : Type} (keq : K → K → bool) (hash : K → N) (nb ms : nat) (d : K * V) (h0 : htable K V) (o x : list (hm_op K V)) :
  HashLaws keq hash → ht_new nb ms d = Some h0 → (0 < nb)%nat → N.of_nat ms + 1 < W32 →
  let step := ht_step keq hash in let h := (history step o h0).2 in
  apart (λ a b, keq a b = true) hm_key x → ht_len h + total hm_needs x ≤ N.of_nat ms →
  (history step x h).1 = map (λ o, (call (step o) h).1) x.
Proof. intros HL Hnew Hnb Hw. exact (ht_alone_fact keq hash HL nb ms d h0 Hnew Hnb Hw o x). Qed.
Theorem C88_ht_any_order `{Profile} {K V : Type} (keq : K → K → bool) (hash : K → N) (nb ms : nat) (d : K * V) (h0 : htable K V)
    (o x y : list (hm_op K V)) :
  HashLaws keq hash → ht_new nb ms d = Some h0 → (0 < nb)%nat → N.of_nat ms + 1 < W32 →
  let step := ht_step keq hash in let h := (history step o h0).2 in
  x ≡ₚ y → apart (λ a b, keq a b = true) hm_key x → ht_len h + total hm_needs x ≤ N.of_nat ms →
  alike (Forall no_iter) step step (history step x h).2 (history step y h).2.
Proof. intros HL Hnew Hnb Hw. exact (ht_perm_fact keq hash HL nb ms d h0 Hnew Hnb Hw o x y). Qed.
Print Assumptions C88_ht_law.
Print Assumptions C88_ht_alone.
Print Assumptions C88_ht_any_order.

(** The deque: a call at the front and a call at the back change places, if there is room for what they push and there are values enough for what
    they take or look at *)
Theorem C88_dq_ends `{Profile} {T : Type} (ms : nat) (v0 : T) (o : list (dq_op T)) (a b : dq_op T) :
  N.of_nat ms + 1 < W32 → (overflow_checks = true → lengthN o + 2 < W64) → at_front a → at_back b →
  let d := (history dq_step o (dq_new ms v0)).2 in
  dq_len d + (dq_needs a + dq_needs b) ≤ N.of_nat ms → dq_wants a + dq_wants b ≤ dq_len d →
  alike (λ c, overflow_checks = true → lengthN o + 2 + lengthN c < W64) dq_step dq_step (history dq_step [a; b] d).2 (history dq_step [b; a] d).2 ∧
  (history dq_step [a; b] d).1 = rev (history dq_step [b; a] d).1.
Proof. exact (dq_ends_fact ms v0 o a b). Qed.
Print Assumptions C88_dq_ends.

(** ** Where the laws end *)
Local Instance ex_profile : Profile := {| overflow_checks := true |}.
(** Without room calls about different keys do not change places *)
Theorem C88_rb_full_refuted : ∃ (o : list (option (om_op N N))) x y,
  let step := om_step (rb_api N.compare) in let t := (history (rb_step N.compare) o (rb_new 2 (0, 0))).2 in
  x ≡ₚ y ∧ apart (λ a b, N.compare a b = Eq) om_key x ∧ rb_len t + total om_needs x = 3 ∧
  ¬ alike any step step (history step x t).2 (history step y t).2.
Proof.
  exists [Some (MInsert 1 10); Some (MInsert 2 20)], [MRemove 1; MInsert 3 30], [MInsert 3 30; MRemove 1]. cbv zeta. split; [apply Permutation_swap|].
  split.
  - split; [exists 1; split; [done|]|split; [exists 3; by split|done]]. constructor; [|constructor]. by intros k' [= <-].
  - split; [by vm_compute|]. intros HA. specialize (HA [MContains 3] I). vm_compute in HA. congruence.
Qed.
(** Critbit: with one place left, insert after insert for the same key keeps the first value: the second is refused *)
Theorem C88_cb_overwrite_refuted : ∃ (t0 : critbit N) o k v w,
  cb_new 12 2 0 = Some t0 ∧ Forall u128_op o ∧ k < W128 ∧
  let t := (history cb_step o t0).2 in
  N.of_nat 2 - cb_len t = 1 ∧
  cb_get (history cb_step [MInsert k v; MInsert k w] t).2 k = Val (Some v) ∧ cb_get (history cb_step [MInsert k w] t).2 k = Val (Some w) ∧ v ≠ w.
Proof.
  eexists. exists [MInsert 1 10], 2, 20, 21. cbv zeta. split; [vm_compute; reflexivity|]. split; [by repeat constructor|]. by vm_compute.
Qed.
(** An ordered map keeps the key it has: to remove and insert is not to insert, when equal keys differ *)
Definition ex_first (a b : N * N) : comparison := N.compare a.1 b.1.
Theorem C88_rb_remove_insert_refuted : ∃ (o : list (option (om_op (N * N) N))) k k' v,
  let step := om_step (rb_api ex_first) in let t := (history (rb_step ex_first) o (rb_new 4 ((0, 0), 0))).2 in
  ex_first k k' = Eq ∧ ¬ alike any step step (history step [MRemove k; MInsert k' v] t).2 (history step [MInsert k' v] t).2.
Proof.
  exists [Some (MInsert (1, 1) 10)], (1, 1), (1, 2), 20. cbv zeta. split; [done|]. intros HA. specialize (HA [MGetMin] I). vm_compute in HA. congruence.
Qed.
(** Iteration over the hash table shows the order of the insertions *)
Theorem C88_ht_order_refuted : ∃ (h0 : htable N N) x y,
  ht_new 2 4 (0, 0) = Some h0 ∧ hm_law (λ a b, (a =? b) = true) (N.of_nat 4 - ht_len h0) x y ∧
  ¬ alike any (ht_step N.eqb id) (ht_step N.eqb id) (history (ht_step N.eqb id) x h0).2 (history (ht_step N.eqb id) y h0).2.
Proof.
  eexists. exists [HInsert 1 10; HInsert 3 30], [HInsert 3 30; HInsert 1 10]. split; [vm_compute; reflexivity|]. split.
  - by eapply hm_swap.
  - intros HA. specialize (HA [HIter 2] I). vm_compute in HA. congruence.
Qed.
(** One value in the deque: who pops first gets it *)
Theorem C88_dq_last_refuted : ∃ o : list (dq_op N),
  let d := (history dq_step o (dq_new 4 0)).2 in
  dq_len d = 1 ∧ (history dq_step [DPopFront; DPopBack] d).1 ≠ rev (history dq_step [DPopBack; DPopFront] d).1.
Proof. exists [DPushBack 5]. by vm_compute. Qed.
Print Assumptions C88_rb_full_refuted.
Print Assumptions C88_cb_overwrite_refuted.
Print Assumptions C88_rb_remove_insert_refuted.
Print Assumptions C88_ht_order_refuted.
Print Assumptions C88_dq_last_refuted.

(** ** Cases that meet the hypotheses *)
Definition ex_pcmp (a b : N) : option comparison := Some (N.compare a b).
Definition ex_o : list (om_op N N) := [MInsert 10 1; MInsert 20 2; MInsert 30 3].
Definition ex_x : list (om_op N N) := [MInsert 15 7; MRemove 20; MGetMut 10 (λ v, v + 5); MInsert 30 9; MIndex 40; MContains 50].
Definition ex_y : list (om_op N N) := [MContains 50; MInsert 30 9; MInsert 15 7; MIndex 40; MGetMut 10 (λ v, v + 5); MRemove 20].
Lemma ex_perm : ex_x ≡ₚ ex_y.
Proof. unfold ex_x, ex_y. solve_Permutation. Qed.
Lemma ex_apart : apart (λ a b, N.compare a b = Eq) om_key ex_x.
Proof.
  unfold ex_x. repeat (split; [eexists; split; [reflexivity|]; repeat constructor; by intros ? [= <-]|]). done.
Qed.
Example ex_C88_av :
  let t := (history (av_step ex_pcmp) ex_o (av_new 5 (0, 0))).2 in
  av_len t + total om_needs ex_x = 5 ∧
  (history (av_step ex_pcmp) ex_x t).1 = [Val (MBool true); Val (MVal (Some 2)); Val (MVal (Some 1)); Val (MBool true); Err Panic; Val (MBool false)] ∧
  av_iterate (history (av_step ex_pcmp) ex_x t).2 (replicate 4 Fwd) = Val [Some (10, 6); Some (15, 7); Some (30, 9); None] ∧
  av_iterate (history (av_step ex_pcmp) ex_y t).2 (replicate 4 Fwd) = Val [Some (10, 6); Some (15, 7); Some (30, 9); None].
Proof. by vm_compute. Qed.
(** Every law in turn, on a map with two places left *)
Definition ex_laws : list (list (om_op N N) * list (om_op N N)) :=
  [ ([MInsert 15 7; MRemove 20], [MRemove 20; MInsert 15 7]); ([MGetMax], []); ([MInsert 15 7; MInsert 15 8], [MInsert 15 8]);
    ([MInsert 15 7; MRemove 15], [MRemove 15]); ([MInsert 15 7; MGetMut 15 (λ v, v + 1)], [MInsert 15 8]); ([MRemove 20; MRemove 20], [MRemove 20]);
    ([MRemove 20; MGetMut 20 (λ v, v + 1)], [MRemove 20]); ([MGetMut 20 (λ v, v + 1); MInsert 20 9], [MInsert 20 9]);
    ([MGetMut 20 (λ v, v + 1); MRemove 20], [MRemove 20]); ([MGetMut 20 (λ v, v + 1); MGetMut 20 (λ v, v * 2)], [MGetMut 20 (λ v, (v + 1) * 2)])].
Example ex_C88_laws : ∃ t0 : critbit N, cb_new 20 5 0 = Some t0 ∧
  let t := (history cb_step ex_o t0).2 in
  N.of_nat 5 - cb_len t = 2 ∧ Forall (λ xy, Forall u128_op (xy.1 ++ xy.2) ∧ om_law (λ a b, N.compare a b = Eq) true 2 xy.1 xy.2) ex_laws ∧
  map (λ xy, cb_iterate (history cb_step xy.1 t).2 (replicate 5 Fwd)) ex_laws = map (λ xy, cb_iterate (history cb_step xy.2 t).2 (replicate 5 Fwd)) ex_laws.
Proof.
  eexists. cbv zeta. split; [vm_compute; reflexivity|]. split; [by vm_compute|]. split; [|by vm_compute].
  unfold ex_laws. repeat (constructor; [split; [by repeat constructor|]; cbn [fst snd]|]); [| | | | | | | | | |constructor].
  - by apply (om_swap _ _ _ _ _ 15 20).
  - by apply om_read.
  - by apply om_insert_insert.
  - by apply om_insert_remove.
  - by apply (om_insert_mut _ _ _ 15 15 7 (λ v, v + 1)).
  - by apply om_remove_remove.
  - by apply om_remove_mut.
  - by apply om_mut_insert.
  - by apply om_mut_remove.
  - by apply (om_mut_mut _ _ _ 20 20 (λ v, v + 1) (λ v, v * 2)).
Qed.
Example ex_C88_dq :
  let d := (history dq_step [DPushBack 5; DPushBack 6; DPushFront 4] (dq_new 4 0)).2 in
  dq_len d + (dq_needs (DPushFront 3) + dq_needs (DPopBack (T:=N))) = 4 ∧ dq_wants (DPushFront 3) + dq_wants (DPopBack (T:=N)) ≤ dq_len d ∧
  dq_iterate [Fwd; Fwd; Fwd] (history dq_step [DPushFront 3; DPopBack] d).2 = Val [Some (4, 3); Some (3, 4); Some (1, 5)] ∧
  dq_iterate [Fwd; Fwd; Fwd] (history dq_step [DPopBack; DPushFront 3] d).2 = Val [Some (2, 3); Some (3, 4); Some (1, 5)].
Proof. by vm_compute. Qed.
