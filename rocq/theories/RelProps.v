(** * C65: the collections do not look at what they store, except through comparison and hashing

    Two structures run the same calls on different payloads, possibly of different types; [RelSpec] says what "the same up to the payloads"
    means. From it: keys may be taken to be numbers, and the structural unit tests of red_black_tree.rs pass for all keys in the same
    relative order. *)
From Verif Require Import MapProof RelProof RelMain StructProof.

(** ** Related payloads in, related payloads out, everything else equal *)
Section related.
  Context `{Profile}.
  (** NodeAllocator: any relation between the payloads *)
  Theorem C65_al {T T'} (R : T → T' → Prop) ms nr d d' a a' ops ops' :
    R d d' → na_default ms nr d = Some a → na_default ms nr d' = Some a' → Forall2 (al_op_rel R) ops ops' →
    Forall2 (rrel (al_out_rel R)) (history al_step ops a).1 (history al_step ops' a').1 ∧
    alr R (history al_step ops a).2 (history al_step ops' a').2.
  Proof. exact (al_hist R ms nr d d' a a' ops ops'). Qed.
  (** Deque *)
  Theorem C65_dq {T T'} (R : T → T' → Prop) ms d d' ops ops' :
    R d d' → Forall2 (dq_op_rel R) ops ops' →
    Forall2 (rrel (dq_out_rel R)) (history dq_step ops (dq_new ms d)).1 (history dq_step ops' (dq_new ms d')).1 ∧
    dqr R (history dq_step ops (dq_new ms d)).2 (history dq_step ops' (dq_new ms d')).2.
  Proof. exact (dq_hist R ms d d' ops ops'). Qed.
  (** Critbit: any relation between the values; the keys are the same *)
  Theorem C65_cb {V V'} (RV : V → V' → Prop) nn ms d d' t t' ops ops' :
    RV d d' → cb_new nn ms d = Some t → cb_new nn ms d' = Some t' → Forall2 (om_op_rel eq RV) ops ops' →
    Forall2 (rrel (om_out_rel eq RV)) (history cb_step ops t).1 (history cb_step ops' t').1 ∧
    cbr RV (history cb_step ops t).2 (history cb_step ops' t').2.
  Proof. exact (cb_hist RV nn ms d d' t t' ops ops'). Qed.
  (** RedBlackTree: any relation between the values, any relation between the keys that the comparisons cannot tell apart *)
  Theorem C65_rb {K K' V V'} (RK : K → K' → Prop) (RV : V → V' → Prop) cmp cmp' ms d d' ops ops' :
    (∀ a a' b b', RK a a' → RK b b' → cmp a b = cmp' a' b') → prel RK RV d d' → Forall2 (orel (om_op_rel RK RV)) ops ops' →
    Forall2 (rrel (om_out_rel RK RV)) (history (rb_step cmp) ops (rb_new ms d)).1 (history (rb_step cmp') ops' (rb_new ms d')).1 ∧
    rbr RK RV (history (rb_step cmp) ops (rb_new ms d)).2 (history (rb_step cmp') ops' (rb_new ms d')).2.
  Proof. exact (rb_hist RK RV cmp cmp' ms d d' ops ops'). Qed.
  (** AVLTree; an incomparable pair of keys counts as equal ([po_cmp]) *)
  Theorem C65_av {K K' V V'} (RK : K → K' → Prop) (RV : V → V' → Prop) pcmp pcmp' ms d d' ops ops' :
    (∀ a a' b b', RK a a' → RK b b' → po_cmp pcmp a b = po_cmp pcmp' a' b') → prel RK RV d d' → Forall2 (om_op_rel RK RV) ops ops' →
    Forall2 (rrel (om_out_rel RK RV)) (history (av_step pcmp) ops (av_new ms d)).1 (history (av_step pcmp') ops' (av_new ms d')).1 ∧
    avr RK RV (history (av_step pcmp) ops (av_new ms d)).2 (history (av_step pcmp') ops' (av_new ms d')).2.
  Proof. exact (av_hist RK RV pcmp pcmp' ms d d' ops ops'). Qed.
  (** HashTable: related keys have the same hash, and equality cannot tell them apart *)
  Theorem C65_ht {K K' V V'} (RK : K → K' → Prop) (RV : V → V' → Prop) keq keq' hash hash' nb ms d d' h h' ops ops' :
    (∀ a a' b b', RK a a' → RK b b' → keq a b = keq' a' b') → (∀ a a', RK a a' → hash a = hash' a') → prel RK RV d d' →
    ht_new nb ms d = Some h → ht_new nb ms d' = Some h' → Forall2 (hm_op_rel RK RV) ops ops' →
    Forall2 (rrel (hm_out_rel RK RV)) (history (ht_step keq hash) ops h).1 (history (ht_step keq' hash') ops' h').1 ∧
    htr RK RV (history (ht_step keq hash) ops h).2 (history (ht_step keq' hash') ops' h').2.
  Proof. exact (ht_hist RK RV keq keq' hash hash' nb ms d d' h h' ops ops'). Qed.

  (** The address an insertion reports is the same as well (the histories above only say whether there is one) *)
  Theorem C65_rb_address {K K' V V'} (RK : K → K' → Prop) (RV : V → V' → Prop) cmp cmp' k k' v v' t t' :
    (∀ a a' b b', RK a a' → RK b b' → cmp a b = cmp' a' b') → RK k k' → RV v v' → rbr RK RV t t' →
    (call (rb_insert cmp k v) t).1 = (call (rb_insert cmp' k' v') t').1.
  Proof. exact (rb_insert_addr RK RV cmp cmp' k k' v v' t t'). Qed.
  Theorem C65_av_address {K K' V V'} (RK : K → K' → Prop) (RV : V → V' → Prop) pcmp pcmp' k k' v v' t t' :
    (∀ a a' b b', RK a a' → RK b b' → po_cmp pcmp a b = po_cmp pcmp' a' b') → RK k k' → RV v v' → avr RK RV t t' →
    (call (av_insert pcmp k v) t).1 = (call (av_insert pcmp' k' v') t').1.
  Proof. exact (av_insert_addr RK RV pcmp pcmp' k k' v v' t t'). Qed.
  Theorem C65_ht_address {K K' V V'} (RK : K → K' → Prop) (RV : V → V' → Prop) keq keq' hash hash' k k' v v' t t' :
    (∀ a a' b b', RK a a' → RK b b' → keq a b = keq' a' b') → (∀ a a', RK a a' → hash a = hash' a') → RK k k' → RV v v' → htr RK RV t t' →
    (call (ht_insert keq hash k v) t).1 = (call (ht_insert keq' hash' k' v') t').1.
  Proof. exact (ht_insert_addr RK RV keq keq' hash hash' k k' v v' t t'). Qed.
  Theorem C65_cb_address {V V'} (RV : V → V' → Prop) k v v' t t' :
    RV v v' → cbr RV t t' → (call (cb_insert k v) t).1 = (call (cb_insert k v') t').1.
  Proof. exact (cb_insert_addr RV k v v' t t'). Qed.
End related.
Print Assumptions C65_al.
Print Assumptions C65_dq.
Print Assumptions C65_cb.
Print Assumptions C65_rb.
Print Assumptions C65_av.
Print Assumptions C65_ht.
Print Assumptions C65_rb_address.
Print Assumptions C65_av_address.
Print Assumptions C65_ht_address.
Print Assumptions C65_cb_address.

(** ** Keys may be taken to be numbers

    Whatever the key type and its (lawful) order, there is a way to replace the keys of a history by numbers such that the tree of numbers
    answers the same and ends up with the same shape: a fault of the tree with any key type shows with u64 keys. *)
Section numbers.
  Context `{Profile} {K V : Type}.
  Theorem C65_rb_numbers (cmp : K → K → comparison) ms (d : K * V) ops : OrdLaws cmp →
    ∃ f : K → N,
      Forall2 (rrel (om_out_rel (λ k n, n = f k) eq))
        (history (rb_step cmp) ops (rb_new ms d)).1 (history (rb_step N.compare) (map (option_map (om_rename f)) ops) (rb_new ms (f d.1, d.2))).1 ∧
      rbr (λ k n, n = f k) eq
        (history (rb_step cmp) ops (rb_new ms d)).2 (history (rb_step N.compare) (map (option_map (om_rename f)) ops) (rb_new ms (f d.1, d.2))).2.
  Proof. exact (rb_numbers cmp ms d ops). Qed.
  Theorem C65_av_numbers (pcmp : K → K → option comparison) ms (d : K * V) ops : OrdLaws (po_cmp pcmp) →
    let lt := λ a b, Some (N.compare a b) in
    ∃ f : K → N,
      Forall2 (rrel (om_out_rel (λ k n, n = f k) eq))
        (history (av_step pcmp) ops (av_new ms d)).1 (history (av_step lt) (map (om_rename f) ops) (av_new ms (f d.1, d.2))).1 ∧
      avr (λ k n, n = f k) eq
        (history (av_step pcmp) ops (av_new ms d)).2 (history (av_step lt) (map (om_rename f) ops) (av_new ms (f d.1, d.2))).2.
  Proof. exact (av_numbers pcmp ms d ops). Qed.
  Theorem C65_ht_numbers (keq : K → K → bool) (hash : K → N) nb ms (d : K * V) ops h : HashLaws keq hash → ht_new nb ms d = Some h →
    ∃ (f : K → N) (hash' : N → N) h', ht_new nb ms (f d.1, d.2) = Some h' ∧
      Forall2 (rrel (hm_out_rel (λ k n, n = f k) eq))
        (history (ht_step keq hash) ops h).1 (history (ht_step N.eqb hash') (map (hm_rename f) ops) h').1 ∧
      htr (λ k n, n = f k) eq
        (history (ht_step keq hash) ops h).2 (history (ht_step N.eqb hash') (map (hm_rename f) ops) h').2.
  Proof. intros HL. exact (ht_numbers keq hash HL nb ms d ops h). Qed.
End numbers.
Print Assumptions C65_rb_numbers.
Print Assumptions C65_av_numbers.
Print Assumptions C65_ht_numbers.

(** ** The structural unit tests pass for all keys in the order of the keys they use, with any values, in both profiles *)
Section tests.
  Context `{Profile} {K V : Type} (cmp : K → K → comparison) (HO : OrdLaws cmp) (d : K * V) (z : V).
  Theorem C65_test_red_uncle k52 k61 k76 k85 k93 k100 :
    cmp k52 k61 = Lt → cmp k61 k76 = Lt → cmp k76 k85 = Lt → cmp k85 k93 = Lt → cmp k93 k100 = Lt →
    ∃ t, test_red_uncle (rb_shape cmp) z k52 k61 k76 k85 k93 k100 (rb_new 1024 d) = Ret () t.
  Proof using HO. exact (red_uncle_passes cmp HO d z k52 k61 k76 k85 k93 k100). Qed.
  Theorem C65_test_right_right k52 k61 k85 k93 k100 :
    cmp k52 k61 = Lt → cmp k61 k85 = Lt → cmp k85 k93 = Lt → cmp k93 k100 = Lt →
    ∃ t, test_right_right (rb_shape cmp) z k52 k61 k85 k93 k100 (rb_new 1024 d) = Ret () t.
  Proof using HO. exact (right_right_passes cmp HO d z k52 k61 k85 k93 k100). Qed.
  Theorem C65_test_right_left k52 k61 k85 k87 k93 :
    cmp k52 k61 = Lt → cmp k61 k85 = Lt → cmp k85 k87 = Lt → cmp k87 k93 = Lt →
    ∃ t, test_right_left (rb_shape cmp) z k52 k61 k85 k87 k93 (rb_new 1024 d) = Ret () t.
  Proof using HO. exact (right_left_passes cmp HO d z k52 k61 k85 k87 k93). Qed.
  Theorem C65_test_left_left k25 k41 k52 k61 k85 :
    cmp k25 k41 = Lt → cmp k41 k52 = Lt → cmp k52 k61 = Lt → cmp k61 k85 = Lt →
    ∃ t, test_left_left (rb_shape cmp) z k25 k41 k52 k61 k85 (rb_new 1024 d) = Ret () t.
  Proof using HO. exact (left_left_passes cmp HO d z k25 k41 k52 k61 k85). Qed.
  Theorem C65_test_left_right k41 k47 k52 k61 k85 :
    cmp k41 k47 = Lt → cmp k47 k52 = Lt → cmp k52 k61 = Lt → cmp k61 k85 = Lt →
    ∃ t, test_left_right (rb_shape cmp) z k41 k47 k52 k61 k85 (rb_new 1024 d) = Ret () t.
  Proof using HO. exact (left_right_passes cmp HO d z k41 k47 k52 k61 k85). Qed.
  Theorem C65_test_remove_root k0 k1 k2 v4 v5 v0 : cmp k0 k1 = Lt → cmp k1 k2 = Lt →
    ∃ t, test_remove_root (rb_insert cmp) rb_remove_root k0 k1 k2 v4 v5 v0 (rb_new 4098 d) = Ret (k1, v5) t.
  Proof using HO. exact (remove_root_passes cmp HO d k0 k1 k2 v4 v5 v0). Qed.
End tests.
Print Assumptions C65_test_red_uncle.
Print Assumptions C65_test_right_right.
Print Assumptions C65_test_right_left.
Print Assumptions C65_test_left_left.
Print Assumptions C65_test_left_right.
Print Assumptions C65_test_remove_root.

(** *** Examples *)
Local Instance ex_profile : Profile := {| overflow_checks := true |}.
(** Integers in descending order, against numbers in ascending order *)
Definition zcmp (a b : Z) : comparison := Z.compare b a.
Lemma zcmp_laws : OrdLaws zcmp.
Proof.
  split; unfold zcmp.
  - intros a b. apply Z.compare_antisym.
  - intros a b c. rewrite !Z.compare_lt_iff. lia.
  - intros a b c Hab. apply Z.compare_eq_iff in Hab as ->. done.
Qed.
Definition ex_ops : list (option (om_op Z bool)) :=
  [Some (MInsert (-5)%Z true); Some (MInsert 7%Z false); Some (MInsert 0%Z true); Some (MRemove 7%Z); Some (MInsert 9%Z true); None;
   Some (MGet (-5)%Z); Some (MIter [Fwd; Bwd; Fwd])].
Definition ex_ops' : list (option (om_op N N)) :=
  [Some (MInsert 15 1); Some (MInsert 3 2); Some (MInsert 10 3); Some (MRemove 3); Some (MInsert 1 4); None;
   Some (MGet 15); Some (MIter [Fwd; Bwd; Fwd])].
Definition ex_RK (a : Z) (n : N) : Prop := Z.of_N n = (10 - a)%Z.
(** The hypotheses of [C65_rb] hold for a key relation between different types and orders, and values of different types *)
Example ex_C65_rb :
  (∀ a a' b b', ex_RK a a' → ex_RK b b' → zcmp a b = N.compare a' b') ∧ prel ex_RK (λ _ _, True) (10%Z, false) (0, 0) ∧
  rb_root (history (rb_step zcmp) ex_ops (rb_new 4 (10%Z, false))).2 = rb_root (history (rb_step N.compare) ex_ops' (rb_new 4 (0, 0))).2 ∧
  map regs (nodes (rb_al (history (rb_step zcmp) ex_ops (rb_new 4 (10%Z, false))).2)) =
  map regs (nodes (rb_al (history (rb_step N.compare) ex_ops' (rb_new 4 (0, 0))).2)).
Proof.
  split; [|split; [|split]]; [|by split|by vm_compute|by vm_compute].
  unfold ex_RK, zcmp. intros a a' b b' Ha Hb. rewrite <- N2Z.inj_compare, Ha, Hb.
  destruct (Z.compare_spec b a), (Z.compare_spec (10 - a) (10 - b)); try done; lia.
Qed.
(** the numbers the last three answers are about *)
Example ex_C65_answers :
  (history (rb_step zcmp) ex_ops (rb_new 4 (10%Z, false))).1 =
    [Val (MBool true); Val (MBool true); Val (MBool true); Val (MVal (Some false)); Val (MBool true); Val (MPair (Some (0%Z, true)));
     Val (MVal (Some true)); Val (MList [Some (9%Z, true); Some ((-5)%Z, true); None])] ∧
  (history (rb_step N.compare) ex_ops' (rb_new 4 (0, 0))).1 =
    [Val (MBool true); Val (MBool true); Val (MBool true); Val (MVal (Some 2)); Val (MBool true); Val (MPair (Some (10, 3)));
     Val (MVal (Some 1)); Val (MList [Some (1, 4); Some (15, 1); None])].
Proof. split; by vm_compute. Qed.
(** The tests' own keys, and others of another type in the same order *)
Example ex_C65_tests :
  (∃ t, test_red_uncle (rb_shape N.compare) 0 52 61 76 85 93 100 (rb_new 1024 (0, 0)) = Ret () t) ∧
  (∃ t, test_red_uncle (rb_shape zcmp) true 9%Z 8%Z 3%Z 0%Z (-4)%Z (-70)%Z (rb_new 1024 (0%Z, false)) = Ret () t) ∧
  (∃ t, test_left_right (rb_shape N.compare) 0 41 47 52 61 85 (rb_new 1024 (0, 0)) = Ret () t) ∧
  (∃ t, test_remove_root (rb_insert N.compare) rb_remove_root 0 1 2 4 5 0 (rb_new 4098 (0, 0)) = Ret (1, 5) t).
Proof.
  split_and!.
  - apply C65_test_red_uncle; [apply N_laws|done..].
  - apply C65_test_red_uncle; [apply zcmp_laws|done..].
  - apply C65_test_left_right; [apply N_laws|done..].
  - apply C65_test_remove_root; [apply N_laws|done..].
Qed.
(** In another order the assertions do not hold *)
Example ex_C65_order : ∃ t, test_red_uncle (rb_shape N.compare) 0 61 52 76 85 93 100 (rb_new 8 (0, 0)) = Fail Panic t.
Proof. eexists. vm_compute. reflexivity. Qed.
