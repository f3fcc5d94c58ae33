(** * Facts about the number of rounds of the red-black tree's loops *)
From Verif Require Import RBMain CostRB CostProof.

Section facts.
  Context `{Profile} {K V : Type} (cmp : K → K → comparison) (HO : OrdLaws cmp) (cap : N) (n : nat).
  Implicit Types t : rbt K V.
  Lemma rb_rounds t U :
    rbok cmp cap t U → 0 < cap → (height U < n)%nat →
    (∀ k v, rbn_insert cmp n k v t = rb_insert cmp k v t) ∧ (∀ k, rbn_remove cmp n k t = rb_remove cmp k t) ∧
    rbn_remove_root n t = rb_remove_root t ∧
    (∀ k, rbn_get_addr cmp n t k = rb_get_addr cmp t k) ∧ (∀ k, rbn_get cmp n t k = rb_get cmp t k) ∧
    (∀ k, rbn_contains cmp n t k = rb_contains cmp t k) ∧ (∀ k f, rbn_get_mut cmp n k f t = rb_get_mut cmp k f t) ∧
    rbn_get_min_index n t = rb_get_min_index t ∧ rbn_get_max_index n t = rb_get_max_index t ∧
    rbn_get_min n t = rb_get_min t ∧ rbn_get_max n t = rb_get_max t.
  Proof using HO.
    intros Hok Hc Hn. pose proof Hok as [HR _ _].
    assert (∀ k, rbn_get_addr cmp n t k = rb_get_addr cmp t k) as Hga.
    { intros k. unfold rbn_get_addr, rb_get_addr. rewrite (rep_root _ _ _ HR).
      pose proof (rep_tsize _ _ _ HR). pose proof (height_tsize U).
      rewrite bst_get_addr_ok; [symmetry; apply bst_get_addr_ok|..]; try (by apply (rep_shp cap)); try (destruct HR as [Hch _]; by eapply CH_vals);
        (erewrite R_fuel by exact HR); lia. }
    assert (∀ k, rbn_get cmp n t k = rb_get cmp t k) as Hg. { intros k. unfold rbn_get, rb_get. by rewrite Hga. }
    assert (∀ r, (r = Left ∨ r = Right) → na_find_dir (Nat.min n (rb_fuel t)) (rb_al t) r (rb_root t) = na_find_dir (rb_fuel t) (rb_al t) r (rb_root t)) as Hd.
    { intros r Hr. rewrite (rep_root _ _ _ HR). pose proof (rep_tsize _ _ _ HR). pose proof (height_tsize U).
      destruct Hr as [-> | ->].
      - rewrite !na_find_min; [done|by apply (rep_shp cap)|erewrite R_fuel by exact HR; lia|by apply (rep_shp cap)|erewrite R_fuel by exact HR; lia].
      - rewrite !na_find_max; [done|by apply (rep_shp cap)|erewrite R_fuel by exact HR; lia|by apply (rep_shp cap)|erewrite R_fuel by exact HR; lia]. }
    assert (rbn_get_min_index n t = rb_get_min_index t) as Hmin by (apply Hd; by left).
    assert (rbn_get_max_index n t = rb_get_max_index t) as Hmax by (apply Hd; by right).
    split_and!; try done.
    - intros k v. eapply (fle_wp _ _ _ (λ _ _, True)); [apply insert_fle|]. by eapply (wpn_insert cmp HO cap n t U).
    - intros k. eapply (fle_wp _ _ _ (λ _ _, True)); [apply remove_fle|]. eapply (wpn_remove cmp HO cap n t U); [done|lia|done].
    - eapply (fle_wp _ _ _ (λ _ _, True)); [apply remove_root_fle|]. eapply (wpn_remove_root cmp HO cap n t U); [done|lia|done..].
    - intros k. unfold rbn_contains, rb_contains. by rewrite Hg.
    - intros k f. unfold rbn_get_mut, rb_get_mut. unfold mbind, M_bind. unfold gets at 1 3. by rewrite Hga.
    - unfold rbn_get_min, rb_get_min. by rewrite Hmin.
    - unfold rbn_get_max, rb_get_max. by rewrite Hmax.
  Qed.
End facts.

Section reach.
  Context `{Profile} {K V : Type} (cmp : K → K → comparison) (HO : OrdLaws cmp) (ms : nat) (d : K * V).
  Context (H0 : (0 < ms)%nat) (Hw : N.of_nat ms + 1 < W32).
  Lemma rb_rounds_height (o : list (option (om_op K V))) n :
    (rb_len (rb_after cmp ms d o) + 1) ^ 2 < 2 ^ N.of_nat n →
    ∃ U, rbok cmp (N.of_nat ms) (rb_after cmp ms d o) U ∧ (height U < n)%nat.
  Proof using HO H0 Hw.
    intros Hn. destruct (rb_reach cmp HO ms d o H0 Hw) as (U & l & _ & Hok & _). exists U. split; [done|].
    pose proof (rb_height cmp (N.of_nat ms) _ U Hok) as Hh.
    assert (2 ^ N.of_nat (height U) < 2 ^ N.of_nat n) as Hlt by lia. apply N.pow_lt_mono_r_iff in Hlt; lia.
  Qed.
End reach.
