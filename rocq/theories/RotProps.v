(** * C72: how many rotations an operation makes

    [rbr_insert cmp n], [rbr_remove cmp n], …, [avr_remove pcmp n] (RotModel.v) are the operations with [n] rotations at their disposal: each rotation takes one
    of them, and a rotation with none left is the failure [OutOfFuel]. Where they compute the same as the operations no more than [n] rotations are made. *)
From Verif Require Import Spec RBMain AVLMain RBProps AVLProps CostProof CostRBFact CostAv RotModel RotProof RotRB RotAvOps.

(** with any number of rotations: out of them, or the same end *)
Theorem C72_copies `{Profile} {K V : Type} (cmp : K → K → comparison) (pcmp : K → K → option comparison) (n : nat) :
  (∀ k v (t : rbt K V), (∃ t', rbr_insert cmp n k v t = Fail OutOfFuel t') ∨ rbr_insert cmp n k v t = rb_insert cmp k v t) ∧
  (∀ k (t : rbt K V), (∃ t', rbr_remove cmp n k t = Fail OutOfFuel t') ∨ rbr_remove cmp n k t = rb_remove cmp k t) ∧
  (∀ t : rbt K V, (∃ t', rbr_remove_root n t = Fail OutOfFuel t') ∨ rbr_remove_root n t = rb_remove_root t) ∧
  (∀ k v (t : avlt K V), (∃ t', avr_insert pcmp n k v t = Fail OutOfFuel t') ∨ avr_insert pcmp n k v t = av_insert pcmp k v t) ∧
  (∀ k (t : avlt K V), (∃ t', avr_remove pcmp n k t = Fail OutOfFuel t') ∨ avr_remove pcmp n k t = av_remove pcmp k t).
Proof.
  split_and!; intros; [apply rbr_insert_fle|apply rbr_remove_fle|apply rbr_remove_root_fle|apply avr_insert_fle|apply avr_remove_fle].
Qed.
Print Assumptions C72_copies.

(** RedBlackTree: an insertion makes two rotations at most, a removal three, whatever the size of the tree *)
Theorem C72_rb_rotations `{Profile} {K V : Type} (cmp : K → K → comparison) (ms : nat) (d : K * V) (o : list (option (om_op K V))) :
  OrdLaws cmp → (0 < ms)%nat → N.of_nat ms + 1 < W32 →
  let t := rb_after cmp ms d o in
  (∀ k v, rbr_insert cmp 2 k v t = rb_insert cmp k v t) ∧ (∀ k, rbr_remove cmp 3 k t = rb_remove cmp k t) ∧
  rbr_remove_root 3 t = rb_remove_root t.
Proof.
  intros HO H0 Hw t. destruct (rb_reach cmp HO ms d o H0 Hw) as (U & l & _ & Hok & _). split_and!.
  - intros k v. eapply (fle_wp _ _ _ (λ _ _, True)); [apply rbr_insert_fle|]. eapply (RotRB.wpr_insert cmp HO _ 2 _ U); [exact Hok|lia|done|done].
  - intros k. eapply (fle_wp _ _ _ (λ _ _, True)); [apply rbr_remove_fle|]. eapply (RotRB.wpr_remove cmp HO _ 3 _ U); [exact Hok|done|done].
  - eapply (fle_wp _ _ _ (λ _ _, True)); [apply rbr_remove_root_fle|]. eapply (RotRB.wpr_remove_root cmp HO _ 3 _ U); [exact Hok|done..].
Qed.
Print Assumptions C72_rb_rotations.

(** AVLTree: an insertion makes two rotations at most; a removal with [len] entries present makes [n] at most if (len + 1)² < 2ⁿ⁺¹, that is, no more than
    the tree may be high *)
Theorem C72_av_rotations `{Profile} {K V : Type} (pcmp : K → K → option comparison) (ms : nat) (d : K * V) (o : list (om_op K V)) n :
  OrdLaws (po_cmp pcmp) → (0 < ms)%nat → N.of_nat ms + 1 < W32 →
  let t := av_after pcmp ms d o in
  (∀ k v, avr_insert pcmp 2 k v t = av_insert pcmp k v t) ∧
  ((av_len t + 1) ^ 2 < 2 ^ (N.of_nat n + 1) → ∀ k, avr_remove pcmp n k t = av_remove pcmp k t).
Proof.
  intros HO H0 Hw t. split.
  - intros k v. destruct (av_reach pcmp HO ms d H0 Hw o) as (U & Hok & _).
    eapply (fle_wp _ _ _ (λ _ _, True)); [apply avr_insert_fle|]. eapply (RotAvOps.wpr_insert pcmp HO _ 2 _ U); [exact Hok|lia|done|done].
  - intros Hn k. replace (N.of_nat n + 1) with (N.of_nat (S n)) in Hn by lia.
    destruct (av_rounds_height pcmp HO ms d H0 Hw o (S n) Hn) as (U & Hok & Hh).
    eapply (fle_wp _ _ _ (λ _ _, True)); [apply avr_remove_fle|]. eapply (RotAvOps.wpr_remove pcmp HO _ n _ U); [exact Hok|lia|done].
Qed.
Print Assumptions C72_av_rotations.

(** ** Cases: none of the constants can be less *)
Local Instance ex_profile : Profile := {| overflow_checks := true |}.
Definition ex_keys : list N := [2; 1; 5; 8; 9; 3].
Definition runs_out {S A} (o : outcome S A) : Prop := match o with Fail e _ => e = OutOfFuel | _ => False end.
Example ex_C72_rb_insert :
  let t := rb_after N.compare 8 (0, 0) ((λ k, Some (MInsert k (10 * k))) <$> [1; 9]) in
  rbr_insert N.compare 2 5 50 t = rb_insert N.compare 5 50 t ∧ runs_out (rbr_insert N.compare 1 5 50 t) ∧
  match rb_insert N.compare 5 50 t with Ret o _ => o = Some 3 | _ => False end.
Proof. by vm_compute. Qed.
Example ex_C72_rb_remove :
  let t := rb_after N.compare 8 (0, 0) ((λ k, Some (MInsert k (10 * k))) <$> ex_keys) in
  rbr_remove N.compare 3 1 t = rb_remove N.compare 1 t ∧ runs_out (rbr_remove N.compare 2 1 t) ∧
  match rb_remove N.compare 1 t with Ret o _ => o = Some 10 | _ => False end.
Proof. by vm_compute. Qed.
Example ex_C72_av_insert :
  let t := av_after nat_pcmp 8 (0, 0) ((λ k, MInsert k (10 * k)) <$> [1; 9]) in
  avr_insert nat_pcmp 2 5 50 t = av_insert nat_pcmp 5 50 t ∧ runs_out (avr_insert nat_pcmp 1 5 50 t) ∧
  match av_insert nat_pcmp 5 50 t with Ret o _ => o = Some 3 | _ => False end.
Proof. by vm_compute. Qed.
(** a removal that rotates at two levels, once twice *)
Example ex_C72_av_remove :
  let t := av_after nat_pcmp 16 (0, 0) ((λ k, MInsert k (10 * k)) <$> [5; 2; 8; 1; 4; 7; 10; 3; 6; 9; 11; 12]) in
  av_len t = 12 ∧ (av_len t + 1) ^ 2 < 2 ^ (N.of_nat 7 + 1) ∧
  avr_remove nat_pcmp 3 1 t = av_remove nat_pcmp 1 t ∧ avr_remove nat_pcmp 7 1 t = av_remove nat_pcmp 1 t ∧ runs_out (avr_remove nat_pcmp 2 1 t).
Proof. by vm_compute. Qed.
