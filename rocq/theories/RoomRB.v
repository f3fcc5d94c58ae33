(** * Room and rounds on the trees the RedBlackTree calls build *)
From Verif Require Import Spec RBMain CostRBFact IterRoom IterLoops.

Lemma rb_reach_room `{Profile} {K V : Type} (cmp : K → K → comparison) (HO : OrdLaws cmp) (ms : nat) (d : K * V)
    (H0 : (0 < ms)%nat) (Hw : N.of_nat ms + 1 < W32) (show : K → list N) (o : list (option (om_op K V))) n :
  let t := rb_after cmp ms d o in let len := N.to_nat (rb_len t) in
  (rb_len t + 1) ^ 2 < 2 ^ (N.of_nat n + 1) →
  let m := (2 * len, 2 * len)%nat in
  (∀ sc, rbm_iterate n m t sc = rb_iterate t sc) ∧ (∀ sc, rbm_iterate_mut n m sc t = rb_iterate_mut sc t) ∧
  rbm_is_valid n len t = rb_is_valid t ∧ rbm_pretty_print (n + 1) show (2 * len + 1) t = rb_pretty_print show t.
Proof.
  intros t len Hn m. replace (N.of_nat n + 1) with (N.of_nat (S n)) in Hn by lia.
  destruct (rb_rounds_height cmp HO ms d H0 Hw o (S n) Hn) as (U & [HR _ _] & Hh).
  pose proof (rep_len _ _ _ HR) as Hl. fold t in Hl, HR. pose proof (rep_root _ _ _ HR) as Hroot.
  pose proof HR as [Hc _]. pose proof (CH_shp rgrb rgrb_ok _ _ _ _ Hc) as Hs. pose proof (CH_tsize rgrb _ _ _ _ Hc) as Hsz.
  assert (rb_len t = N.of_nat (tsize U)) as Hlen by (rewrite Hl, tsize_entries; done).
  assert (len = tsize U) as Hlen' by (unfold len; rewrite Hlen; lia).
  destruct (rbm_loops_within n show t U Hroot Hs Hsz Hlen) as [Hv _].
  destruct (rbm_loops_within (n + 1) show t U Hroot Hs Hsz Hlen) as [_ Hp].
  destruct (rbm_within n m t (height U)) as [Hi Hm].
  { unfold rb_iter. rewrite Hroot. unfold m. rewrite Hlen'. apply within_new; [done|done|lia]. }
  { lia. }
  rewrite Hlen'. split_and!; [done|done|apply Hv; lia|apply Hp; lia].
Qed.
