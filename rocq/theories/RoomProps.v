(** * C73: the memory and the time iterators need

    [rbm_iterate n (f, b)], [rbm_iterate_mut n (f, b)], … (IterModel.v) are the iterators driven by a script with stacks that have place for [n] entries, with
    [f] rounds of the loop for all calls of [next] together and [b] for all calls of [next_back], and with no more than [n + 1] rounds ([n] for the Critbit) in
    one call: whatever goes beyond ends with [OutOfFuel]. Where they answer the same as the iterators these bounds are kept. *)
From Verif Require Import Spec RBMain AVLMain CritMain HashProps RBProps AVLProps HashMain IterModel IterRoom IterRoomCb IterRoomHt IterLoops RoomRB RoomAv.

(** with any bounds, of any container: out of them, or the same answers and the same container afterwards *)
Theorem C73_copies `{Profile} {K V : Type} (show : K → list N) (n rds : nat) (m : meter) :
  (∀ (t : rbt K V) sc, rbm_iterate n m t sc = Err OutOfFuel ∨ rbm_iterate n m t sc = rb_iterate t sc) ∧
  (∀ (t : rbt K V) sc, (∃ t', rbm_iterate_mut n m sc t = Fail OutOfFuel t') ∨ rbm_iterate_mut n m sc t = rb_iterate_mut sc t) ∧
  (∀ t : rbt K V, rbm_is_valid n rds t = Err OutOfFuel ∨ rbm_is_valid n rds t = rb_is_valid t) ∧
  (∀ t : rbt K V, rbm_pretty_print n show rds t = Err OutOfFuel ∨ rbm_pretty_print n show rds t = rb_pretty_print show t) ∧
  (∀ (t : avlt K V) sc, avm_iterate n m t sc = Err OutOfFuel ∨ avm_iterate n m t sc = av_iterate t sc) ∧
  (∀ (t : avlt K V) sc, (∃ t', avm_iterate_mut n m sc t = Fail OutOfFuel t') ∨ avm_iterate_mut n m sc t = av_iterate_mut sc t) ∧
  (∀ (t : critbit V) sc, cbm_iterate n m t sc = Err OutOfFuel ∨ cbm_iterate n m t sc = cb_iterate t sc) ∧
  (∀ (t : critbit V) sc, (∃ t', cbm_iterate_mut n m sc t = Fail OutOfFuel t') ∨ cbm_iterate_mut n m sc t = cb_iterate_mut sc t) ∧
  (∀ (h : htable K V) sc, htm_iterate rds h sc = Err OutOfFuel ∨ htm_iterate rds h sc = ht_iterate h sc) ∧
  (∀ (h : htable K V) sc, (∃ h', htm_iterate_mut rds sc h = Fail OutOfFuel h') ∨ htm_iterate_mut rds sc h = ht_iterate_mut sc h).
Proof.
  split_and!; intros; [by apply rbm_mle|by apply rbm_mle|by apply rbm_loops_mle|by apply rbm_loops_mle|by apply avm_mle|by apply avm_mle
    |by apply cbm_mle|by apply cbm_mle|by apply htm_mle|by apply htm_mle].
Qed.
Print Assumptions C73_copies.

(** RedBlackTree with [len] entries, (len + 1)² < 2ⁿ⁺¹: whatever the order of the calls of [next] and [next_back], and after the end as before it, no stack of an
    iterator holds more than [n] indices, one call goes round n + 1 times at most, and all calls of [next] together, as all calls of [next_back], 2·len times.
    [is_valid_red_black_tree] needs [n] places and [len] rounds, [pretty_print] n + 1 places and 2·len + 1 rounds. *)
Theorem C73_rb_room `{Profile} {K V : Type} (cmp : K → K → comparison) (ms : nat) (d : K * V) (show : K → list N) (o : list (option (om_op K V))) n :
  OrdLaws cmp → (0 < ms)%nat → N.of_nat ms + 1 < W32 →
  let t := rb_after cmp ms d o in let len := N.to_nat (rb_len t) in
  (rb_len t + 1) ^ 2 < 2 ^ (N.of_nat n + 1) →
  (∀ script, rbm_iterate n (2 * len, 2 * len)%nat t script = rb_iterate t script) ∧
  (∀ script, rbm_iterate_mut n (2 * len, 2 * len)%nat script t = rb_iterate_mut script t) ∧
  rbm_is_valid n len t = rb_is_valid t ∧ rbm_pretty_print (n + 1) show (2 * len + 1) t = rb_pretty_print show t.
Proof. intros HO H0 Hw. exact (rb_reach_room cmp HO ms d H0 Hw show o n). Qed.
Print Assumptions C73_rb_room.

(** AVLTree: the same *)
Theorem C73_av_room `{Profile} {K V : Type} (pcmp : K → K → option comparison) (ms : nat) (d : K * V) (o : list (om_op K V)) n :
  OrdLaws (po_cmp pcmp) → (0 < ms)%nat → N.of_nat ms + 1 < W32 →
  let t := av_after pcmp ms d o in let len := N.to_nat (av_len t) in
  (av_len t + 1) ^ 2 < 2 ^ (N.of_nat n + 1) →
  (∀ script, avm_iterate n (2 * len, 2 * len)%nat t script = av_iterate t script) ∧
  (∀ script, avm_iterate_mut n (2 * len, 2 * len)%nat script t = av_iterate_mut script t).
Proof. intros HO H0 Hw. exact (av_reach_room pcmp HO ms d H0 Hw o n). Qed.
Print Assumptions C73_av_room.

(** Critbit: 129 places, or [len] if that is less, whatever the keys; 2·len − 1 rounds *)
Theorem C73_cb_room `{Profile} {V : Type} (nn ms : nat) (d : V) (t0 : critbit V) (o : list (om_op N V)) n :
  (0 < ms)%nat → N.of_nat nn + 1 < W32 → cb_new nn ms d = Some t0 → Forall u128_op o →
  let t := (history cb_step o t0).2 in let len := N.to_nat (cb_len t) in
  (129 ≤ n)%nat ∨ (0 < n)%nat ∧ (len ≤ n)%nat →
  (∀ script, cbm_iterate n (2 * len - 1, 2 * len - 1)%nat t script = cb_iterate t script) ∧
  (∀ script, cbm_iterate_mut n (2 * len - 1, 2 * len - 1)%nat script t = cb_iterate_mut script t).
Proof. intros H0 Hw Hnew Hu. exact (cb_reach_room nn ms d H0 Hw t0 Hnew o n Hu). Qed.
Print Assumptions C73_cb_room.

(** HashTable, in any state: all calls of [next] together step over at most NUM_BUCKETS buckets *)
Theorem C73_ht_rounds `{Profile} {K V : Type} (h : htable K V) :
  (∀ script, htm_iterate (length (buckets h)) h script = ht_iterate h script) ∧
  (∀ script, htm_iterate_mut (length (buckets h)) script h = ht_iterate_mut script h).
Proof. exact (htm_within h). Qed.
Print Assumptions C73_ht_rounds.

(** ** Cases: the bounds are met, and less does not do *)
Local Instance ex_profile : Profile := {| overflow_checks := true |}.
Definition ex_keys : list N := [1; 2; 3; 4; 5; 6; 7].
Definition ex_there : list fb := [Fwd; Fwd; Fwd; Fwd; Fwd; Fwd; Fwd; Fwd; Fwd].
Definition ex_back : list fb := [Bwd; Bwd; Bwd; Bwd; Bwd; Bwd; Bwd; Bwd; Bwd].
Definition ex_mixed : list fb := [Fwd; Bwd; Bwd; Fwd; Bwd; Fwd; Fwd; Bwd; Fwd].
Definition ex_all : list (option (N * N)) := [Some (1, 10); Some (2, 20); Some (3, 30); Some (4, 40); Some (5, 50); Some (6, 60); Some (7, 70); None; None].
Example ex_C73_rb :
  let t := rb_after N.compare 8 (0, 0) ((λ k, Some (MInsert k (10 * k))) <$> ex_keys) in
  rb_len t = 7 ∧ (rb_len t + 1) ^ 2 < 2 ^ (N.of_nat 6 + 1) ∧
  (* the way down to the least key has two nodes, the way to the greatest four *)
  rbm_iterate 1 (14, 14)%nat t ex_there = Err OutOfFuel ∧ rbm_iterate 2 (14, 14)%nat t ex_there = Val ex_all ∧
  rbm_iterate 6 (13, 14)%nat t ex_there = Err OutOfFuel ∧
  rbm_iterate 3 (0, 14)%nat t ex_back = Err OutOfFuel ∧ rbm_iterate 4 (0, 14)%nat t ex_back = rb_iterate t ex_back ∧
  rbm_iterate 4 (14, 14)%nat t ex_mixed = rb_iterate t ex_mixed ∧
  rbm_is_valid 4 7 t = Val true ∧ rbm_is_valid 4 6 t = Err OutOfFuel.
Proof. by vm_compute. Qed.
Example ex_C73_av :
  let t := av_after nat_pcmp 8 (0, 0) ((λ k, MInsert k (10 * k)) <$> ex_keys) in
  av_len t = 7 ∧ (av_len t + 1) ^ 2 < 2 ^ (N.of_nat 6 + 1) ∧
  avm_iterate 3 (14, 0)%nat t ex_there = Val ex_all ∧ avm_iterate 2 (14, 0)%nat t ex_there = Err OutOfFuel ∧
  avm_iterate 6 (13, 0)%nat t ex_there = Err OutOfFuel ∧ avm_iterate 3 (14, 14)%nat t ex_mixed = av_iterate t ex_mixed.
Proof. by vm_compute. Qed.
(** powers of two lie on one long way down to the left: with eight of them the stack holds eight entries *)
Definition ex_pows : list N := [1; 2; 4; 8; 16; 32; 64; 128].
Definition ex_cb0 : critbit N := match cb_new 20 10 0 with Some t => t | None => cb_zeroed 20 10 0 end.
Example ex_C73_cb :
  let o := (λ k, MInsert k (10 * k)) <$> ex_pows in let t := (history cb_step o ex_cb0).2 in
  cb_new 20 10 0 = Some ex_cb0 ∧ Forall u128_op o ∧ cb_len t = 8 ∧
  cbm_iterate 8 (15, 15)%nat t ex_there = cb_iterate t ex_there ∧ cbm_iterate 7 (15, 15)%nat t ex_there = Err OutOfFuel ∧
  cbm_iterate 8 (14, 15)%nat t ex_there = Err OutOfFuel ∧ cbm_iterate 8 (15, 15)%nat t ex_mixed = cb_iterate t ex_mixed.
Proof. split_and!; [by vm_compute|repeat constructor|by vm_compute..]. Qed.
Example ex_C73_ht :
  match ht_new 4 5 (0, 0) with
  | Some h0 =>
      let h := ht_after N.eqb id h0 [HInsert 1 10; HInsert 5 50; HInsert 3 30] in
      length (buckets h) = 4%nat ∧ htm_iterate 4 h [Fwd; Fwd; Fwd; Fwd; Fwd] = Val [Some (5, 50); Some (1, 10); Some (3, 30); None; None] ∧
      htm_iterate 3 h [Fwd; Fwd; Fwd; Fwd; Fwd] = Err OutOfFuel
  | None => False
  end.
Proof. by vm_compute. Qed.
