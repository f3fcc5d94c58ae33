(** * C87: the contents are the whole state *)
From Verif Require Import Spec RBMain AVLMain CritMain HashMain DequeApi AlikeOrd AlikeCrit AlikeHash.

(** Two maps made by any two histories [o] and [o'] cannot be told apart by any sequence of calls of the trait if and only if their capacities are
    the same and reading them once from front to back gives the same. The red-black trees may have seen [remove_root] (written [None]). *)
Theorem C87_rb `{Profile} {K V : Type} (cmp : K → K → comparison) (ms ms' : nat) (d d' : K * V) (o o' : list (option (om_op K V))) :
  OrdLaws cmp → (0 < ms)%nat → N.of_nat ms + 1 < W32 → (0 < ms')%nat → N.of_nat ms' + 1 < W32 →
  let t := (history (rb_step cmp) o (rb_new ms d)).2 in let t' := (history (rb_step cmp) o' (rb_new ms' d')).2 in
  alike any (om_step (rb_api cmp)) (om_step (rb_api cmp)) t t' ↔ ms = ms' ∧ same_read (rb_iterate t) (rb_iterate t').
Proof. intros HO H0 Hw H0' Hw'. exact (rb_rb_fact cmp ms ms' d d' HO H0 Hw H0' Hw' o o'). Qed.
Theorem C87_av `{Profile} {K V : Type} (pcmp : K → K → option comparison) (ms ms' : nat) (d d' : K * V) (o o' : list (om_op K V)) :
  OrdLaws (po_cmp pcmp) → (0 < ms)%nat → N.of_nat ms + 1 < W32 → (0 < ms')%nat → N.of_nat ms' + 1 < W32 →
  let t := (history (av_step pcmp) o (av_new ms d)).2 in let t' := (history (av_step pcmp) o' (av_new ms' d')).2 in
  alike any (av_step pcmp) (av_step pcmp) t t' ↔ ms = ms' ∧ same_read (av_iterate t) (av_iterate t').
Proof. intros HO H0 Hw H0' Hw'. exact (av_av_fact pcmp ms ms' d d' HO H0 Hw H0' Hw' o o'). Qed.
(** A red-black tree and an AVL tree *)
Theorem C87_rb_av `{Profile} {K V : Type} (pcmp : K → K → option comparison) (ms ms' : nat) (d d' : K * V)
    (o : list (option (om_op K V))) (o' : list (om_op K V)) :
  OrdLaws (po_cmp pcmp) → (0 < ms)%nat → N.of_nat ms + 1 < W32 → (0 < ms')%nat → N.of_nat ms' + 1 < W32 →
  let t := (history (rb_step (po_cmp pcmp)) o (rb_new ms d)).2 in let t' := (history (av_step pcmp) o' (av_new ms' d')).2 in
  alike any (om_step (rb_api (po_cmp pcmp))) (av_step pcmp) t t' ↔ ms = ms' ∧ same_read (rb_iterate t) (av_iterate t').
Proof. intros HO H0 Hw H0' Hw'. exact (rb_av_fact pcmp ms ms' d d' HO H0 Hw H0' Hw' o o'). Qed.
(** Two crit-bit trees, also with different numbers of nodes *)
Theorem C87_cb `{Profile} {V : Type} (nn nn' ms ms' : nat) (d d' : V) (t0 t0' : critbit V) (o o' : list (om_op N V)) :
  (0 < ms)%nat → N.of_nat nn + 1 < W32 → cb_new nn ms d = Some t0 → Forall u128_op o →
  (0 < ms')%nat → N.of_nat nn' + 1 < W32 → cb_new nn' ms' d' = Some t0' → Forall u128_op o' →
  let t := (history cb_step o t0).2 in let t' := (history cb_step o' t0').2 in
  alike (Forall u128_op) cb_step cb_step t t' ↔ ms = ms' ∧ same_read (cb_iterate t) (cb_iterate t').
Proof. exact (cb_cb_fact nn nn' ms ms' d d' t0 t0' o o'). Qed.
(** Two hash tables with the same number of buckets; for every [==] and every hash function *)
Theorem C87_ht `{Profile} {K V : Type} (keq : K → K → bool) (hash : K → N) (nb ms ms' : nat) (d d' : K * V) (h0 h0' : htable K V)
    (o o' : list (hm_op K V)) :
  ht_new nb ms d = Some h0 → N.of_nat ms + 1 < W32 → ht_new nb ms' d' = Some h0' → N.of_nat ms' + 1 < W32 → (0 < nb)%nat →
  let h := (history (ht_step keq hash) o h0).2 in let h' := (history (ht_step keq hash) o' h0').2 in
  alike any (ht_step keq hash) (ht_step keq hash) h h' ↔ ms = ms' ∧ same_read (ht_iterate h) (ht_iterate h').
Proof. exact (ht_ht_fact keq hash nb ms ms' d d' h0 h0' o o'). Qed.
(** Two hash tables with any numbers of buckets and any lawful hash functions: without iteration only the value of each key and the capacity
    can be seen *)
Theorem C87_ht_blind `{Profile} {K V : Type} (keq : K → K → bool) (hash hash' : K → N) (nb nb' ms ms' : nat) (d d' : K * V)
    (h0 h0' : htable K V) (o o' : list (hm_op K V)) :
  HashLaws keq hash → ht_new nb ms d = Some h0 → (0 < nb)%nat → N.of_nat ms + 1 < W32 →
  HashLaws keq hash' → ht_new nb' ms' d' = Some h0' → (0 < nb')%nat → N.of_nat ms' + 1 < W32 →
  let h := (history (ht_step keq hash) o h0).2 in let h' := (history (ht_step keq hash') o' h0').2 in
  alike (Forall no_iter) (ht_step keq hash) (ht_step keq hash') h h' ↔ ms = ms' ∧ ∀ k, ht_get keq hash h k = ht_get keq hash' h' k.
Proof. exact (ht_blind_fact keq hash hash' nb nb' ms ms' d d' h0 h0' o o'). Qed.
(** Two deques, read without the slots; with overflow checks, as long as the counter of changes does not run over (2^64 calls) *)
Theorem C87_dq `{Profile} {T : Type} (ms ms' : nat) (v0 v0' : T) (o o' : list (dq_op T)) :
  N.of_nat ms + 1 < W32 → N.of_nat ms' + 1 < W32 →
  (overflow_checks = true → lengthN o + W32 < W64) → (overflow_checks = true → lengthN o' + W32 < W64) →
  let d := (history dq_step o (dq_new ms v0)).2 in let d' := (history dq_step o' (dq_new ms' v0')).2 in
  let values d sc := match dq_iterate sc d with Val l => Val (no_index l) | Err e => Err e end in
  alike (λ c, overflow_checks = true → lengthN o + lengthN c < W64 ∧ lengthN o' + lengthN c < W64) dq_step dq_step d d' ↔
  ms = ms' ∧ same_read (values d) (values d').
Proof. exact (dq_dq_fact ms ms' v0 v0' o o'). Qed.
Print Assumptions C87_rb.
Print Assumptions C87_av.
Print Assumptions C87_rb_av.
Print Assumptions C87_cb.
Print Assumptions C87_ht.
Print Assumptions C87_ht_blind.
Print Assumptions C87_dq.

(** ** What is not determined by the contents *)
Local Instance ex_profile : Profile := {| overflow_checks := true |}.
Lemma read_two {K V} (it : list fb → res (list (option (K * V)))) (l : list (K * V)) x y :
  (∀ sc, it sc = Val (de_spec sc l)) → it [Fwd; Fwd; Fwd] = Val [Some x; Some y; None] → l = [x; y].
Proof. intros Hl H3. rewrite Hl in H3. destruct l as [|a [|b [|c l]]]; cbn in H3; congruence. Qed.
(** [remove_root], which is not a call of the trait, tells two red-black trees with the same contents apart *)
Theorem C87_rb_remove_root_refuted : ∃ o o' : list (option (om_op N N)),
  let t := (history (rb_step N.compare) o (rb_new 4 (0, 0))).2 in let t' := (history (rb_step N.compare) o' (rb_new 4 (0, 0))).2 in
  same_read (rb_iterate t) (rb_iterate t') ∧ ¬ alike any (rb_step N.compare) (rb_step N.compare) t t'.
Proof.
  exists [Some (MInsert 10 1); Some (MInsert 20 2)], [Some (MInsert 20 2); Some (MInsert 10 1)]. cbv zeta. split.
  - destruct (rb_from N.compare 4 (0, 0) N_laws ltac:(lia) ltac:(done) [Some (MInsert 10 1); Some (MInsert 20 2)]) as (l & Hl & _).
    destruct (rb_from N.compare 4 (0, 0) N_laws ltac:(lia) ltac:(done) [Some (MInsert 20 2); Some (MInsert 10 1)]) as (l' & Hl' & _).
    intros n. unfold rb_after in *. rewrite Hl, Hl'.
    rewrite (read_two _ l (10, 1) (20, 2) Hl), (read_two _ l' (10, 1) (20, 2) Hl'); [done|by vm_compute|by vm_compute].
  - intros HA. specialize (HA [None] I). vm_compute in HA. congruence.
Qed.
(** The number of buckets shows in later iterations, though the tables read the same now *)
Theorem C87_ht_buckets_refuted : ∃ (h0 h0' : htable N N) (o : list (hm_op N N)),
  let h := (history (ht_step N.eqb id) o h0).2 in let h' := (history (ht_step N.eqb id) o h0').2 in
  ht_new 2 4 (0, 0) = Some h0 ∧ ht_new 4 4 (0, 0) = Some h0' ∧
  same_read (ht_iterate h) (ht_iterate h') ∧ ¬ alike any (ht_step N.eqb id) (ht_step N.eqb id) h h'.
Proof.
  eexists. eexists. exists [HInsert 2 20]. cbv zeta. split; [vm_compute; reflexivity|]. split; [vm_compute; reflexivity|]. split.
  - intros n. rewrite (order_iter_fact N.eqb id 2 4 (0, 0)), (order_iter_fact N.eqb id 4 4 (0, 0)); [by vm_compute| | | | | |]; done || lia.
  - intros HA. specialize (HA [HInsert 1 10; HIter 2] I). vm_compute in HA. congruence.
Qed.
(** Slots are not determined: two alike deques hold their values in different slots *)
Theorem C87_dq_slots_refuted : ∃ o o' : list (dq_op N),
  let d := (history dq_step o (dq_new 4 0)).2 in let d' := (history dq_step o' (dq_new 4 0)).2 in
  alike (λ c, lengthN c < 2 ^ 63) dq_step dq_step d d' ∧ dq_iterate [Fwd; Fwd] d ≠ dq_iterate [Fwd; Fwd] d'.
Proof.
  exists [DPushBack 5; DPushBack 6], [DPushFront 6; DPushFront 5]. cbv zeta. split; [|by vm_compute].
  intros c Hc. apply (proj2 (C87_dq 4 4 0 0 [DPushBack 5; DPushBack 6] [DPushFront 6; DPushFront 5] eq_refl eq_refl (λ _, eq_refl) (λ _, eq_refl))).
  - split; [done|]. destruct (dq_from 4 0 [DPushBack 5; DPushBack 6] eq_refl (λ _, eq_refl)) as (l & _ & Hl & _).
    destruct (dq_from 4 0 [DPushFront 6; DPushFront 5] eq_refl (λ _, eq_refl)) as (l' & _ & Hl' & _).
    intros n. fold (dq_values (T:=N)). pose proof (Hl [Fwd; Fwd; Fwd]) as H1. pose proof (Hl' [Fwd; Fwd; Fwd]) as H2.
    etrans; [exact (Hl _)|]. etrans; [|symmetry; exact (Hl' _)]. vm_compute in H1, H2. f_equal. f_equal.
    destruct l as [|a [|b [|? l]]]; cbn in H1; try congruence. destruct l' as [|a' [|b' [|? l']]]; cbn in H2; congruence.
  - intros _. change (lengthN [DPushBack 5; DPushBack 6]) with 2. change (lengthN [DPushFront 6; DPushFront 5]) with 2. unfold W64. lia.
Qed.
Print Assumptions C87_rb_remove_root_refuted.
Print Assumptions C87_ht_buckets_refuted.
Print Assumptions C87_dq_slots_refuted.

(** ** Cases that meet the hypotheses *)
(** Two histories with nothing in common but the contents they end with *)
Definition ex_pcmp (a b : N) : option comparison := Some (N.compare a b).
Definition ex_o : list (om_op N N) := [MInsert 10 1; MInsert 20 2; MInsert 30 3; MRemove 20; MInsert 40 4].
Definition ex_o' : list (om_op N N) := [MInsert 40 0; MInsert 30 3; MGetMut 40 (λ _, 4); MInsert 10 7; MInsert 10 1].
Definition ex_more : list (om_op N N) := [MInsert 25 5; MRemove 30; MInsert 50 6; MInsert 60 7; MGetMin; MIter [Fwd; Bwd; Fwd; Fwd; Fwd]].
Example ex_C87_trees :
  let t := (history (rb_step (po_cmp ex_pcmp)) (map Some ex_o) (rb_new 4 (0, 0))).2 in let t' := (history (av_step ex_pcmp) ex_o' (av_new 4 (9, 9))).2 in
  rb_iterate t (replicate 4 Fwd) = Val [Some (10, 1); Some (30, 3); Some (40, 4); None] ∧
  av_iterate t' (replicate 4 Fwd) = Val [Some (10, 1); Some (30, 3); Some (40, 4); None] ∧
  (history (om_step (rb_api (po_cmp ex_pcmp))) ex_more t).1 =
    [Val (MBool true); Val (MVal (Some 3)); Val (MBool true); Val (MBool false); Val (MPair (Some (10, 1)));
     Val (MList [Some (10, 1); Some (50, 6); Some (25, 5); Some (40, 4); None])] ∧
  (history (av_step ex_pcmp) ex_more t').1 = (history (om_step (rb_api (po_cmp ex_pcmp))) ex_more t).1.
Proof. by vm_compute. Qed.
Example ex_C87_cb : ∃ t0 t0' : critbit N,
  cb_new 20 4 0 = Some t0 ∧ cb_new 12 4 9 = Some t0' ∧ Forall u128_op ex_o ∧ Forall u128_op ex_o' ∧ Forall u128_op ex_more ∧
  let t := (history cb_step ex_o t0).2 in let t' := (history cb_step ex_o' t0').2 in
  cb_iterate t (replicate 4 Fwd) = Val [Some (10, 1); Some (30, 3); Some (40, 4); None] ∧
  cb_iterate t' (replicate 4 Fwd) = Val [Some (10, 1); Some (30, 3); Some (40, 4); None] ∧
  (history cb_step ex_more t).1 = (history cb_step ex_more t').1.
Proof.
  eexists. eexists. split; [vm_compute; reflexivity|]. split; [vm_compute; reflexivity|]. do 3 (split; [repeat constructor|]). by vm_compute.
Qed.
Definition ex_mod3 (k : N) : N := k mod 3.
Example ex_C87_ht : ∃ h0 h0' : htable N N,
  ht_new 2 4 (0, 0) = Some h0 ∧ ht_new 6 4 (9, 9) = Some h0' ∧ HashLaws N.eqb id ∧ HashLaws N.eqb ex_mod3 ∧
  let h := (history (ht_step N.eqb id) [HInsert 2 20; HInsert 3 30; HInsert 4 40] h0).2 in
  let h' := (history (ht_step N.eqb ex_mod3) [HInsert 4 0; HInsert 5 50; HInsert 3 30; HRemove 5; HInsert 2 20; HGetMut 4 (λ _, 40)] h0').2 in
  map (ht_get N.eqb id h) [2; 3; 4; 5] = [Val (Some 20); Val (Some 30); Val (Some 40); Val None] ∧
  map (ht_get N.eqb ex_mod3 h') [2; 3; 4; 5] = [Val (Some 20); Val (Some 30); Val (Some 40); Val None] ∧
  ht_iterate h [Fwd; Fwd; Fwd] = Val [Some (4, 40); Some (2, 20); Some (3, 30)] ∧
  ht_iterate h' [Fwd; Fwd; Fwd] = Val [Some (3, 30); Some (4, 40); Some (2, 20)] ∧
  let more := [HInsert 6 60; HInsert 7 70; HRemove 2; HContains 2; HLen] in
  (history (ht_step N.eqb id) more h).1 = [Val (HBool true); Val (HBool false); Val (HVal (Some 20)); Val (HBool false); Val (HNum 3)] ∧
  (history (ht_step N.eqb ex_mod3) more h').1 = (history (ht_step N.eqb id) more h).1.
Proof.
  eexists. eexists. split; [vm_compute; reflexivity|]. split; [vm_compute; reflexivity|].
  assert (∀ f : N → N, HashLaws N.eqb f) as HL.
  { intros f. split; [exact N.eqb_refl|exact N.eqb_sym| |].
    - intros a b c ->%N.eqb_eq ->%N.eqb_eq. apply N.eqb_refl.
    - by intros a b ->%N.eqb_eq. }
  do 2 (split; [apply HL|]). by vm_compute.
Qed.
