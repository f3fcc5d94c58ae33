(** * [AVLTree::get_node_mut] against [get_mut] *)
From Verif Require Import Spec AVLMain SearchProof.

Section av.
  Context `{Profile} {K V : Type} (pcmp : K → K → option comparison) (HO : OrdLaws (po_cmp pcmp)) (ms : nat) (d : K * V).
  Context (H0 : (0 < ms)%nat) (Hw : N.of_nat ms + 1 < W32).

  Lemma av_node_mut_fact (o : list (om_op K V)) kv :
    kv ∈ om_contents pcmp ms o → let t := av_after pcmp ms d o in
    ∃ i, av_get_addr pcmp t kv.1 = Val i ∧ av_get_node t i = Val kv ∧
      ∀ v, ∃ t', av_set_node_value i v t = Ret () t' ∧ av_get_mut pcmp kv.1 (λ _, v) t = Ret (Some kv.2) t'.
  Proof using HO H0 Hw.
    intros Hin t. destruct (av_reach pcmp HO ms d H0 Hw o) as (U & Hok & He & _). rewrite <- He in Hin.
    apply elem_of_list_fmap in Hin as ([i kv'] & Hx & Hin). simpl in Hx. subst kv'.
    destruct (av_addr_ok pcmp HO _ _ U kv.1 Hok) as (i0 & kvo & Hg & Had & _). fold t in Had, Hok.
    assert (i0 = i) as ->.
    { destruct Hg as [A B i' kv' HE Hnz Hk Hb Ha|A B HE Hb Ha]; rewrite HE in Hin; unfold below, above in *; rewrite Forall_forall in Hb, Ha.
      - apply elem_of_app in Hin as [Hin|[[= -> ->]|Hin]%elem_of_cons]; [|done|];
          apply (elem_of_list_fmap_1 snd) in Hin; [apply Hb in Hin|apply Ha in Hin]; simpl in Hin; by rewrite (cmp_refl _ HO) in Hin.
      - apply elem_of_app in Hin as [Hin|Hin];
          apply (elem_of_list_fmap_1 snd) in Hin; [apply Hb in Hin|apply Ha in Hin]; simpl in Hin; by rewrite (cmp_refl _ HO) in Hin. }
    pose proof Hok as [HR _ _]. destruct (entries_focus U i kv Hin) as (ctx & m & l & r & ->).
    pose proof (rep_node _ t ctx _ _ _ _ _ HR) as Hnode.
    assert (i ≠ SENTINEL) as Hnz by exact (rep_nz _ t ctx (Nd m l i kv r) HR ltac:(done)).
    exists i. split_and!; [done|done|]. intros v.
    assert (wp (av_set_node_value i v) t (λ _ _, True)) as Hs.
    { eapply rep_set_value; [exact HR|]. done. }
    apply wp_elim in Hs as ([] & t' & Hs & _). exists t'. split; [done|].
    rewrite av_get_mut_s_ok. unfold av_get_mut_s, mbind, M_bind, gets. rewrite Had. rewrite decide_False by done. rewrite Hnode. simpl. by rewrite Hs.
  Qed.
End av.
