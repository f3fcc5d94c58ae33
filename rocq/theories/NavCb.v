(** * [Critbit::get_leaf_mut] against [get_mut] *)
From Verif Require Import Spec SearchProof CritMain.

Section cb.
  Context `{Profile} {V : Type} (nn ms : nat) (d : V) (t0 : critbit V).
  Context (H0 : (0 < ms)%nat) (Hw : N.of_nat nn + 1 < W32) (Hnew : cb_new nn ms d = Some t0).

  Lemma cb_leaf_mut_fact (o : list (om_op N V)) kv :
    Forall u128_op o → kv ∈ cb_contents ms o → let t := (history cb_step o t0).2 in
    ∃ i, cb_value_slot t kv.1 = Val i ∧ cb_get_leaf t i = Val kv.2 ∧
      ∀ v, ∃ t', cb_replace_leaf i v t = Ret () t' ∧ cb_get_mut kv.1 (λ _, v) t = Ret (Some kv.2) t'.
  Proof using All.
    intros Hu Hin t. destruct (cb_reach nn ms d t0 H0 Hw Hnew o Hu) as (_ & E & HE & He). rewrite <- He in Hin.
    fold t in HE.
    destruct HE as [[_ ->]|(U & HR & HwU & ->)]; [by apply elem_of_nil in Hin|].
    apply elem_of_list_fmap in Hin as ([j kv'] & Hx & Hin). simpl in Hx. subst kv'.
    apply elem_of_list_fmap in Hin as ([i x] & Hx & Hin). simpl in Hx. subst x. destruct kv as [k v]. simpl.
    pose proof (addr_mem _ _ _ _ _ _ _ _ HR HwU Hin) as Ha.
    assert (MAX_SIZE (cb_nodes t) < W32) as HW by (by eapply crep_w).
    destruct (crep_nonempty _ _ _ _ HR) as (Hne & _ & _).
    destruct (ent_plug _ _ _ _ _ Hin) as [ctx <-]. pose proof HR as [_ (fr & Ho & _) Hl].
    pose proof (rd_leaf_index _ _ _ _ Ho _ _ _ _ _ _ (CL_cell _ _ _ _ _)) as Hli.
    assert (cb_get_leaf t j = Val v) as Hg. { unfold cb_get_leaf. by rewrite (CH_get _ _ _ _ _ _ Hl (lcell_in _ _ _ _ _)). }
    assert (i ≠ SENTINEL) as Hnz by (eapply AOK_nz; [exact Ho|apply CL_cell]).
    exists j. split_and!; [|done|].
    - unfold cb_value_slot. rewrite Ha. exact Hli.
    - intros w. assert (wp (cb_replace_leaf j w) t (λ _ _, True)) as Hs. { eapply replace_leaf_ok; [exact HR|]. done. }
      apply wp_elim in Hs as ([] & t' & Hs & _). exists t'. split; [done|].
      rewrite cb_get_mut_s_ok by done. unfold cb_get_mut_s, mbind, M_bind, gets, mget. rewrite Hne.
      unfold cb_get_addr in Ha. rewrite Ha. rewrite decide_False by done. rewrite Hli. simpl. rewrite Hg. simpl. by rewrite Hs.
  Qed.
End cb.
