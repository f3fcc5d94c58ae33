(** * Room and rounds on the trees the AVLTree calls build *)
From Verif Require Import Spec AVLMain CostAv IterRoom.

Lemma av_reach_room `{Profile} {K V : Type} (pcmp : K → K → option comparison) (HO : OrdLaws (po_cmp pcmp)) (ms : nat) (d : K * V)
    (H0 : (0 < ms)%nat) (Hw : N.of_nat ms + 1 < W32) (o : list (om_op K V)) n :
  let t := av_after pcmp ms d o in let len := N.to_nat (av_len t) in
  (av_len t + 1) ^ 2 < 2 ^ (N.of_nat n + 1) →
  let m := (2 * len, 2 * len)%nat in
  (∀ sc, avm_iterate n m t sc = av_iterate t sc) ∧ (∀ sc, avm_iterate_mut n m sc t = av_iterate_mut sc t).
Proof.
  intros t len Hn m. replace (N.of_nat n + 1) with (N.of_nat (S n)) in Hn by lia.
  destruct (av_rounds_height pcmp HO ms d H0 Hw o (S n) Hn) as (U & [HR _ _] & Hh).
  pose proof (rep_len _ _ _ HR) as Hl. fold t in Hl, HR. pose proof (rep_root _ _ _ HR) as Hroot.
  pose proof HR as [Hc _]. pose proof (CH_shp rgav rgav_ok _ _ _ _ Hc) as Hs. pose proof (CH_tsize rgav _ _ _ _ Hc) as Hsz.
  assert (len = tsize U) as Hlen' by (unfold len; rewrite Hl, tsize_entries; unfold lengthN; lia).
  apply (avm_within n m t (height U)); [|lia].
  unfold av_iter. rewrite Hroot. unfold m. rewrite Hlen'. apply within_new; [done|done|lia].
Qed.
