(** * Key types lawful only on some of their values (C62) *)
From Verif Require Import RBApi AVLApi HashApi LooseSpec SubsetSpec.
From Verif Require MapProof LooseRB LooseAVL SubsetProof SubsetHash.

(** C62. [P] picks out some of the key type's values ([f64]: those that are not NaN), on which the comparison is a total order; what it says
    about other keys is arbitrary. As long as the calls are only given keys in [P], the trees are the map of [MapSpec]: the answers are those
    of [om_run], and the pairs that can be read from the structure through its root and its child registers are the map's, in key order. *)
Theorem C62_rb_subset `{Profile} {K V} (P : K → bool) (cmp : K → K → comparison) (ms : nat) (d : K * V) (ops : list (option (om_op K V))) :
  OrdLawsOn P cmp → (0 < ms)%nat → N.of_nat ms + 1 < W32 → Forall (om_key_in P) ops →
  let '(rs, t) := history (rb_step cmp) ops (rb_new ms d) in
  ∃ T, bt_at (rb_get_node t) (rb_get_left t) (rb_get_right t) (rb_root t) T ∧
    om_run cmp (N.of_nat ms) ops [] rs (bt_seq T).*2 ∧ ascending cmp (bt_seq T).*2.
Proof.
  intros HO H0 Hw Hk. pose proof (LooseRB.rb_any_fact cmp ms d H0 Hw ops) as Hr.
  destruct (history (rb_step cmp) ops (rb_new ms d)) as [rs t]. destruct Hr as (T & HT & Hr). exists T. split; [done|].
  by eapply SubsetProof.run_on_new.
Qed.
Theorem C62_av_subset `{Profile} {K V} (P : K → bool) (pcmp : K → K → option comparison) (ms : nat) (d : K * V) (ops : list (om_op K V)) :
  OrdLawsOn P (po_cmp pcmp) → (0 < ms)%nat → N.of_nat ms + 1 < W32 → Forall (om_key_in P) (Some <$> ops) →
  let '(rs, t) := history (av_step pcmp) ops (av_new ms d) in
  ∃ T, bt_at (av_get_node t) (λ i, av_get_field t i Left) (λ i, av_get_field t i Right) (as_u32 (av_root t)) T ∧
    om_run (po_cmp pcmp) (N.of_nat ms) (Some <$> ops) [] rs (bt_seq T).*2 ∧ ascending (po_cmp pcmp) (bt_seq T).*2.
Proof.
  intros HO H0 Hw Hk. pose proof (LooseAVL.av_any_fact pcmp ms d H0 Hw ops) as Hr.
  destruct (history (av_step pcmp) ops (av_new ms d)) as [rs t]. destruct Hr as (T & HT & Hr). exists T. split; [done|].
  by eapply SubsetProof.run_on_new.
Qed.
(** The hash table: on the keys in [P], [==] is an equivalence that the hash respects *)
Theorem C62_ht_subset `{Profile} {K V} (P : K → bool) (keq : K → K → bool) (hash : K → N) (nb ms : nat) (d : K * V) (h0 : htable K V)
    (ops : list (hm_op K V)) :
  HashLawsOn P keq hash → ht_new nb ms d = Some h0 → (0 < nb)%nat → N.of_nat ms + 1 < W32 → Forall (hm_key_in P) ops →
  ∃ l, hm_run keq (N.of_nat ms) ops [] (history (ht_step keq hash) ops h0).1 l ∧ distinct_keys keq l ∧ lengthN l ≤ N.of_nat ms.
Proof. intros HL Hn Hnb Hw Hk. by eapply SubsetHash.ht_subset_fact. Qed.
Print Assumptions C62_rb_subset.
Print Assumptions C62_av_subset.
Print Assumptions C62_ht_subset.

(** ** Floats with NaN ([None]): incomparable with everything, also with itself *)
Local Instance ex_profile : Profile := {| overflow_checks := true |}.
Definition not_nan (a : option N) : bool := match a with Some _ => true | None => false end.
Definition fcmp (a b : option N) : option comparison := match a, b with Some a, Some b => Some (N.compare a b) | _, _ => None end.
Definition feq (a b : option N) : bool := match a, b with Some a, Some b => N.eqb a b | _, _ => false end.
Definition fhash (a : option N) : N := match a with Some a => 10 * a | None => 7 end.
Example ex_C62_laws : OrdLawsOn not_nan (po_cmp fcmp) ∧ HashLawsOn not_nan feq fhash ∧
  po_cmp fcmp None (Some 3) = Eq ∧ po_cmp fcmp None (Some 4) = Eq ∧ po_cmp fcmp (Some 3) (Some 4) = Lt ∧ feq None None = false.
Proof.
  assert (∀ a b, po_cmp fcmp (Some a) (Some b) = N.compare a b) as He by (intros a b; unfold po_cmp; simpl; by destruct (N.compare a b)).
  destruct MapProof.N_laws as [H1 H2 H3]. split_and!; [split|split|done..].
  - intros [a|] [b|]; simpl; try done. intros _ _. rewrite !He. apply H1.
  - intros [a|] [b|] [c|]; simpl; try done. intros _ _ _. rewrite !He. apply H2.
  - intros [a|] [b|] [c|]; simpl; try done. intros _ _ _. rewrite !He. apply H3.
  - intros [a|]; simpl; try done. intros _. apply N.eqb_refl.
  - intros [a|] [b|]; simpl; try done. intros _ _. apply N.eqb_sym.
  - intros [a|] [b|] [c|]; simpl; try done. intros _ _ _. rewrite !N.eqb_eq. by intros -> ->.
  - intros [a|] [b|]; simpl; try done. intros _ _. rewrite N.eqb_eq. by intros ->.
Qed.
Definition ex_ops : list (om_op (option N) N) :=
  [MInsert (Some 5) 50; MInsert (Some 3) 30; MInsert (Some 8) 80; MInsert (Some 3) 31; MInsert (Some 9) 90; MGet (Some 3); MRemove (Some 5);
   MContains (Some 5); MInsert (Some 1) 10; MIter [Fwd; Fwd; Bwd; Fwd]].
Example ex_C62_calls : Forall (om_key_in not_nan) (Some <$> ex_ops) ∧
  (history (av_step fcmp) ex_ops (av_new 3 (None, 0))).1 =
    [Val (MBool true); Val (MBool true); Val (MBool true); Val (MBool true); Val (MBool false); Val (MVal (Some 31)); Val (MVal (Some 50));
     Val (MBool false); Val (MBool true); Val (MList [Some (Some 1, 10); Some (Some 3, 31); Some (Some 8, 80); None])] ∧
  (history (rb_step (po_cmp fcmp)) (Some <$> ex_ops) (rb_new 3 (None, 0))).1 = (history (av_step fcmp) ex_ops (av_new 3 (None, 0))).1.
Proof. split_and!; [repeat constructor|by vm_compute..]. Qed.
(** one key outside of [P] and the claim fails: NaN overwrites another key's value, and the hash table stores it twice *)
Example ex_C62_nan :
  (history (av_step fcmp) [MInsert (Some 5) 50; MInsert None 99; MGet (Some 5)] (av_new 3 (None, 0))).1 =
    [Val (MBool true); Val (MBool true); Val (MVal (Some 99))] ∧
  ∃ h0, ht_new 4 3 (None, 0) = Some h0 ∧
    (history (ht_step feq fhash) [HInsert None 1; HInsert None 2; HLen; HGet None] h0).1 =
      [Val (HBool true); Val (HBool true); Val (HNum 2); Val (HVal None)].
Proof. split; [by vm_compute|]. eexists. split; [by vm_compute|by vm_compute]. Qed.
Example ex_C62_hash :
  ∃ h0, ht_new 4 3 (None, 0) = Some h0 ∧
    (history (ht_step feq fhash) [HInsert (Some 5) 50; HInsert (Some 3) 30; HInsert (Some 5) 51; HGet (Some 5); HLen; HRemove (Some 3)] h0).1 =
      [Val (HBool true); Val (HBool true); Val (HBool true); Val (HVal (Some 51)); Val (HNum 2); Val (HVal (Some 30))].
Proof. eexists. split; [by vm_compute|by vm_compute]. Qed.
