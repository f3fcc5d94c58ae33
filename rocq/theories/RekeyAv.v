(** * C70: overwriting keys — the AVL tree *)
From Verif Require Import Spec AVLMain SearchProof.
From Verif Require Export RekeyProof.

Section av.
  Context `{Profile} {K V : Type} (pcmp : K → K → option comparison) (HO : OrdLaws (po_cmp pcmp)) (cap : N).
  Notation cmp := (po_cmp pcmp).
  Notation I t l := (∃ U, avok pcmp cap t U ∧ (entries U).*2 = l).
  Lemma av_rekey_ok k k' (t : avlt K V) l :
    I t l → may_rekey (eq_of cmp) (fits_order cmp) l k k' = true →
    ∃ i kv t', av_get_addr pcmp t k = Val i ∧ av_get_node t i = Val kv ∧ av_set_node_key i k' t = Ret () t' ∧
      kv ∈ l ∧ eq_of cmp kv.1 k = true ∧ I t' (rekeyed (eq_of cmp) k k' l).
  Proof using HO.
    intros (U & Hok & <-) Hm. pose proof Hok as [HR Hb Ha].
    destruct (av_addr_ok pcmp HO cap t U k Hok) as (i & kvo & Hg & Had & _).
    destruct (get_rel_rekey _ HO _ _ _ _ _ _ Hg Hm) as (A & B & kv & -> & HE & Hnz & Hk & HA & HB).
    assert ((i, kv) ∈ entries U) as Hin by (rewrite HE; set_solver).
    pose proof (rep_NoDup _ _ _ HR) as Hnd.
    destruct (entries_focus U i kv Hin) as (ctx & m & l & r & ->).
    assert (av_get_node t i = Val kv) as Hnode by (by eapply av_node_ok).
    assert (wp (av_set_node_key i k') t (λ _ t', rep cap t' (plug ctx (Nd m l i (k', kv.2) r)))) as Hw.
    { destruct HR as [Hc Hr]. unfold av_set_node_key. apply R_on.
      eapply (CH_set_pair rgav cap _ ctx m l i kv r (k', kv.2)); [exact Hc|by intros n <-|]. intros a' Hc'.
      split; [done|]. simpl. rewrite Hr, !root_plug. done. }
    apply wp_elim in Hw as ([] & t' & Hs & HR').
    destruct (rekeyed_split cmp HO k k' A.*2 kv B.*2 HA HB Hk) as [Hre Heq].
    assert ((entries (plug ctx (Nd m l i (k', kv.2) r))) = A ++ (i, (k', kv.2)) :: B) as He'.
    { rewrite entries_plug in HE, Hnd |- *. cbn [entries] in HE, Hnd |- *. rewrite <- app_assoc in HE, Hnd |- *. rewrite app_assoc in HE, Hnd |- *.
      cbn [app] in HE, Hnd |- *. destruct (split_unique _ _ _ _ _ _ _ Hnd HE) as [-> ->]. done. }
    exists i, kv, t'. split_and!; [done|done|done| |done|].
    - rewrite HE, fmap_app, fmap_cons. set_solver.
    - exists (plug ctx (Nd m l i (k', kv.2) r)). split.
      + split; [done|eapply avl_same; [apply same_plug|done]|]. rewrite He', fmap_app, fmap_cons. cbn [snd].
        rewrite HE, fmap_app, fmap_cons in Ha, Hm. cbn [snd] in Ha, Hm. by eapply rekeyed_asc.
      + rewrite He', HE, !fmap_app, !fmap_cons. cbn [snd]. done.
  Qed.
  Lemma av_rekey_run ops (t : avlt K V) l :
    0 < cap → I t l →
    k_run (λ o l r l', om_spec cmp cap o l = (r, l')) (eq_of cmp) (fits_order cmp) ops l
      (history (k_step (om_step (av_api pcmp)) (av_get_addr pcmp) av_get_node av_set_node_key) ops t).1.
  Proof using HO.
    intros Hc Hi. apply (k_run_ok _ _ _ _ _ _ _ (λ _, True) (λ t l, I t l)); [| |by apply Forall_true|done].
    - intros o s l0 _ (U & Hok & <-).
      destruct (om_step_ok (av_api pcmp) cmp cap (AVI pcmp cap) (av_om_ok pcmp HO cap Hc) o s (entries U)) as (H1 & E' & (U' & Hok' & <-) & HE & _);
        [by exists U|].
      exists (entries U').*2. rewrite H1, HE. split; [by destruct (om_spec cmp cap o (entries U).*2)|]. by exists U'.
    - intros k k' s l0 _. apply av_rekey_ok.
  Qed.
End av.
