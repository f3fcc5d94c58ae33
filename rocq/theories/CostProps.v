(** * C58: how often the loops of the operations go round

    [rbn_insert cmp n], [avn_remove pcmp n], … (CostModel.v) are the operations with every loop stopped, with the failure [OutOfFuel], after [n] rounds.
    Where they compute the same as the operations no loop goes round more than [n] times. *)
From Verif Require Import Spec RBMain HashMain AVLMain CritMain RBProps HashProps AVLProps CostModel CostRBFact CostAv CostCb CostHt.

Section rb.
  Context `{Profile} {K V : Type} (cmp : K → K → comparison) (HO : OrdLaws cmp) (ms : nat) (d : K * V).
  Context (H0 : (0 < ms)%nat) (Hw : N.of_nat ms + 1 < W32).
  (** RedBlackTree: with [len] entries no loop — descent, [_fix_insert], [_fix_remove], search for the predecessor or the end — goes round more than [n] times if
      (len + 1)² < 2ⁿ, that is, if n > 2·log₂(len + 1) *)
  Theorem C58_rb_rounds (o : list (option (om_op K V))) n :
    let t := rb_after cmp ms d o in
    (rb_len t + 1) ^ 2 < 2 ^ N.of_nat n →
    (∀ k v, rbn_insert cmp n k v t = rb_insert cmp k v t) ∧ (∀ k, rbn_remove cmp n k t = rb_remove cmp k t) ∧
    rbn_remove_root n t = rb_remove_root t ∧
    (∀ k, rbn_get_addr cmp n t k = rb_get_addr cmp t k) ∧ (∀ k, rbn_get cmp n t k = rb_get cmp t k) ∧
    (∀ k, rbn_contains cmp n t k = rb_contains cmp t k) ∧ (∀ k f, rbn_get_mut cmp n k f t = rb_get_mut cmp k f t) ∧
    rbn_get_min_index n t = rb_get_min_index t ∧ rbn_get_max_index n t = rb_get_max_index t ∧
    rbn_get_min n t = rb_get_min t ∧ rbn_get_max n t = rb_get_max t.
  Proof using HO H0 Hw.
    intros t (U & Hok & Hh)%(rb_rounds_height cmp HO ms d H0 Hw). eapply (rb_rounds cmp HO); [exact Hok|lia|done].
  Qed.
End rb.
Print Assumptions C58_rb_rounds.

(** AVLTree: the same bound, for the descent of [insert] and [remove], the rebalancing on the way back, and the searches *)
Theorem C58_av_rounds `{Profile} {K V : Type} (pcmp : K → K → option comparison) (ms : nat) (d : K * V) (o : list (om_op K V)) n :
  OrdLaws (po_cmp pcmp) → (0 < ms)%nat → N.of_nat ms + 1 < W32 →
  let t := av_after pcmp ms d o in
  (av_len t + 1) ^ 2 < 2 ^ N.of_nat n →
  (∀ k v, avn_insert pcmp n k v t = av_insert pcmp k v t) ∧ (∀ k, avn_remove pcmp n k t = av_remove pcmp k t) ∧
  (∀ k, avn_get_addr pcmp n t k = av_get_addr pcmp t k) ∧ (∀ k, avn_get pcmp n t k = av_get pcmp t k) ∧
  (∀ k, avn_contains pcmp n t k = av_contains pcmp t k) ∧ (∀ k f, avn_get_mut pcmp n k f t = av_get_mut pcmp k f t) ∧
  avn_find_min_index n t = av_find_min_index t ∧ avn_find_max_index n t = av_find_max_index t ∧
  avn_get_min n t = av_get_min t ∧ avn_get_max n t = av_get_max t.
Proof.
  intros HO H0 Hw t (U & Hok & Hh)%(av_rounds_height pcmp HO ms d H0 Hw). eapply (av_rounds pcmp HO); [exact Hok|done].
Qed.
Print Assumptions C58_av_rounds.

(** Critbit: 129 rounds for any number of entries *)
Theorem C58_cb_rounds `{Profile} {V : Type} (nn ms : nat) (d : V) (t0 : critbit V) (o : list (om_op N V)) n :
  (0 < ms)%nat → N.of_nat nn + 1 < W32 → cb_new nn ms d = Some t0 → Forall u128_op o → (129 ≤ n)%nat →
  let t := (history cb_step o t0).2 in
  (∀ k v, k < W128 → cbn_insert n k v t = cb_insert k v t) ∧ (∀ k, k < W128 → cbn_remove n k t = cb_remove k t) ∧
  (∀ k, k < W128 → cbn_get_addr n t k = cb_get_addr t k) ∧ (∀ k, k < W128 → cbn_get n t k = cb_get t k) ∧
  (∀ k, k < W128 → cbn_contains n t k = cb_contains t k) ∧ (∀ k f, k < W128 → cbn_get_mut n k f t = cb_get_mut k f t) ∧
  cbn_get_min_index n t = cb_get_min_index t ∧ cbn_get_max_index n t = cb_get_max_index t ∧
  cbn_get_min n t = cb_get_min t ∧ cbn_get_max n t = cb_get_max t.
Proof. intros H0 Hw Hnew Hu Hn t. exact (cb_reach_rounds nn ms d H0 Hw t0 Hnew o n Hu Hn). Qed.
Print Assumptions C58_cb_rounds.

Section ht.
  Context `{Profile} {K V : Type} (keq : K → K → bool) (hash : K → N) (HL : HashLaws keq hash) (nb ms : nat) (d : K * V).
  Context (h0 : htable K V) (Hnew : ht_new nb ms d = Some h0) (Hnb : (0 < nb)%nat) (Hw : N.of_nat ms + 1 < W32).
  (** HashTable, with the pairs [l] in it: as many rounds as there are keys in [l] with the bucket of [k], and one more to see the end of the chain *)
  Theorem C58_ht_rounds (o : list (hm_op K V)) l k n :
    let h := ht_after keq hash h0 o in
    ht_holds keq hash ms h0 o l → lengthN (filter (λ kv : K * V, hash kv.1 mod N.of_nat nb = hash k mod N.of_nat nb) l) < N.of_nat n →
    htn_get keq hash n h k = ht_get keq hash h k ∧ htn_contains keq hash n h k = ht_contains keq hash h k ∧
    htn_get_addr keq hash n h k = ht_get_addr keq hash h k ∧ (∀ f, htn_get_mut keq hash n k f h = ht_get_mut keq hash k f h) ∧
    (∀ v, htn_insert keq hash n k v h = ht_insert keq hash k v h) ∧ htn_remove keq hash n k h = ht_remove keq hash k h.
  Proof using HL Hnew Hnb Hw. exact (ht_reach_rounds keq hash HL nb ms d h0 Hnew Hnb Hw o l k n). Qed.
End ht.
Print Assumptions C58_ht_rounds.

(** ** Cases *)
Local Instance ex_profile : Profile := {| overflow_checks := true |}.
Definition ex_keys : list N := [1; 2; 3; 4; 5; 6; 7].
Example ex_C58_rb :
  let t := rb_after N.compare 8 (0, 0) ((λ k, Some (MInsert k (10 * k))) <$> ex_keys) in
  rb_len t = 7 ∧ (rb_len t + 1) ^ 2 < 2 ^ N.of_nat 7 ∧
  (* seven rounds do, two do not *)
  rbn_insert N.compare 7 8 80 t = rb_insert N.compare 8 80 t ∧ rbn_remove N.compare 7 2 t = rb_remove N.compare 2 t ∧
  match rbn_insert N.compare 2 8 80 t with Fail e _ => e = OutOfFuel | _ => False end ∧ rbn_get N.compare 2 t 7 = Err OutOfFuel.
Proof. by vm_compute. Qed.
Example ex_C58_av :
  let t := av_after nat_pcmp 8 (0, 0) ((λ k, MInsert k (10 * k)) <$> ex_keys) in
  av_len t = 7 ∧ (av_len t + 1) ^ 2 < 2 ^ N.of_nat 7 ∧
  avn_insert nat_pcmp 7 8 80 t = av_insert nat_pcmp 8 80 t ∧ avn_remove nat_pcmp 7 4 t = av_remove nat_pcmp 4 t ∧
  match avn_insert nat_pcmp 2 8 80 t with Fail e _ => e = OutOfFuel | _ => False end ∧ avn_get nat_pcmp 2 t 7 = Err OutOfFuel.
Proof. by vm_compute. Qed.
(** A chain of the powers of two makes a deep critbit tree: five rounds do not find the key of this tree of eight *)
Definition ex_pows : list N := [1; 2; 4; 8; 16; 32; 64; 128].
Definition ex_cb0 : critbit N := match cb_new 20 10 0 with Some t => t | None => cb_zeroed 20 10 0 end.
Example ex_C58_cb :
  let o := (λ k, MInsert k (10 * k)) <$> ex_pows in let t := (history cb_step o ex_cb0).2 in
  cb_new 20 10 0 = Some ex_cb0 ∧ Forall u128_op o ∧ cbn_get 129 t 1 = Val (Some 10) ∧ cbn_insert 129 3 30 t = cb_insert 3 30 t ∧
  cbn_get 5 t 1 = Err OutOfFuel.
Proof. split_and!; [by vm_compute|repeat constructor|by vm_compute..]. Qed.
Example ex_C58_ht :
  match ht_new 2 4 (0, 0) with
  | Some h0 =>
      let o := [HInsert 1 10; HInsert 2 20; HInsert 3 30; HInsert 5 50] in let h := ht_after N.eqb id h0 o in
      ht_holds N.eqb id 4 h0 o [(5, 50); (3, 30); (2, 20); (1, 10)] ∧
      htn_get N.eqb id 4 h 7 = Val None ∧ htn_get N.eqb id 3 h 7 = Err OutOfFuel ∧ htn_get N.eqb id 2 h 6 = Val None
  | None => False
  end.
Proof.
  destruct (ht_new 2 4 (0, 0)) as [h0|] eqn:E; [|done]. vm_compute in E. injection E as <-. split; [|by vm_compute].
  unfold ht_holds. vm_compute history. cbn [fst].
  do 4 (econstructor; [apply st_insert; [done|by vm_compute]|]). constructor.
Qed.
