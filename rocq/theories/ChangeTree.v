(** * Search trees read with another comparison *)
From Verif Require Export ChangeSpec LooseSim.
From Verif Require Import MapProof.

Lemma bt_runs_err {K V} cap (cs : list ((K → K → comparison) * option (om_op K V))) T rs T' :
  bt_runs cap cs T rs T' →
  Forall2 (λ o a, ∀ e, a = Err e → e = Panic ∧ ∃ k, o = Some (MIndex k) ∨ ∃ f, o = Some (MIndexMut k f)) cs.*2 rs.
Proof. induction 1; constructor; [|done]. intros e. by eapply bt_step_err. Qed.

Lemma bt_find_none {K V} (cmp : K → K → comparison) k (T : bt K V) :
  Forall (λ x, cmp k x.1 ≠ Eq) (bt_seq T).*2 → bt_find cmp k T = None.
Proof.
  induction T as [|l IHl i kv r IHr]; [done|]. cbn [bt_seq bt_find]. rewrite fmap_app, Forall_app. cbn. rewrite Forall_cons.
  intros (Hl & Hk & Hr). destruct (cmp k kv.1) eqn:He; [done|by apply IHl|by apply IHr].
Qed.
(** With the order reversed, only the key of the root is found *)
Lemma bt_reversed {K V} (cmp : K → K → comparison) k (T : bt K V) :
  OrdLaws cmp → ascending cmp (bt_seq T).*2 →
  bt_find (λ a b, cmp b a) k T =
  match T with BL => None | BN _ i kv _ => match cmp k kv.1 with Eq => Some (i, kv) | _ => None end end.
Proof.
  intros HO Hs. destruct T as [|l i kv r]; [done|]. cbn [bt_seq bt_find] in *. rewrite fmap_app in Hs. cbn in Hs.
  apply (ascending_mid _ HO) in Hs as (_ & _ & Hb & Ha & _). unfold below, above in *.
  destruct (cmp kv.1 k) eqn:He.
  - apply (cmp_eq_sym _ HO) in He. by rewrite He.
  - rewrite (proj2 (cmp_gt _ HO k kv.1) He). apply bt_find_none. eapply Forall_impl; [exact Hb|]. intros x Hx Hn. cbn in *.
    apply (cmp_gt _ HO) in Hx. pose proof (cmp_trans _ HO _ _ _ Hx He) as Ht. congruence.
  - rewrite (proj2 (cmp_lt _ HO k kv.1) He). apply bt_find_none. eapply Forall_impl; [exact Ha|]. intros x Hx Hn. cbn in *.
    apply (cmp_lt _ HO) in He. pose proof (cmp_trans _ HO _ _ _ He Hx) as Ht. apply (cmp_gt _ HO) in Ht. congruence.
Qed.
