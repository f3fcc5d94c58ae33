(** * C70: overwriting keys — the critbit tree *)
From Verif Require Import Spec CritMain.
From Verif Require Import RekeyModel RekeyProof.

Lemma same_crit x k k' p :
  x < W128 → k < W128 → k' < W128 → p < 128 → pre p x k → bit x p ≠ bit k p →
  x ≠ k' → N.log2 (N.lxor x k') = N.log2 (N.lxor x k) → pre p x k' ∧ bit x p ≠ bit k' p.
Proof.
  intros Hx Hk Hk' Hp Hpre Hb Hne Hl.
  assert (x ≠ k) as Hxk by (intros ->; done).
  assert (∀ a b, a ≠ b → N.lxor a b ≠ 0) as Hnz. { intros a b Hab H0. apply Hab. by apply N.lxor_eq. }
  assert (leading_zeros128 (N.lxor x k') = leading_zeros128 (N.lxor x k)) as Hlz.
  { unfold leading_zeros128. rewrite !N.size_log2 by (by apply Hnz). by rewrite Hl. }
  assert (∀ y, y < W128 → pre (p + 1) x y ↔ pre p x y ∧ bit x p = bit y p) as Hs.
  { intros y Hy. split.
    - intros Hq. split; [|apply Hq; lia]. intros q Hq'. apply Hq. lia.
    - intros [H1 H2] q Hq. destruct (decide (q = p)) as [->|]; [done|]. apply H1. lia. }
  assert (pre p x k') as Hpre'. { apply (lz_ge x k'); [done|done|lia|]. rewrite Hlz. apply (lz_ge x k); [done|done|lia|done]. }
  split; [done|]. intros He. assert (pre (p + 1) x k') as H1 by (apply Hs; done).
  apply (lz_ge x k') in H1; [|done|done|lia]. rewrite Hlz in H1. apply (lz_ge x k) in H1; [|done|done|lia]. apply Hs in H1; [|done]. tauto.
Qed.

Section cb.
  Context `{Profile} {V : Type} (nn cap : N) (Hc : 0 < cap) (Hnn : 2 * cap ≤ nn).
  Notation I t l := (∃ E, cbok nn cap t E ∧ E.*2.*2 = l).
  Implicit Types t : critbit V.

  Lemma adm_rekey ctx k k' :
    wfc (V:=V) ctx → adm ctx k → k < W128 → k' < W128 →
    (∀ x, x ∈ (entsL ctx ++ entsR ctx).*2.*2.*1 → x ≠ k' ∧ N.log2 (N.lxor x k') = N.log2 (N.lxor x k)) → adm ctx k'.
  Proof.
    induction ctx as [|[b i kf p s] ctx IH]; intros Hw Ha Hk Hk' Hf; [constructor|].
    destruct Hw as (Hp & Hkf & Hs & Hws & Has & Hw). apply Forall_cons in Ha as [[Hp1 Hb] Ha].
    assert (∀ x, x ∈ keys s → x ≠ k' ∧ N.log2 (N.lxor x k') = N.log2 (N.lxor x k)) as Hfs.
    { intros x Hx. apply Hf. cbn [entsL entsR]. unfold keys, kvs in Hx. destruct b; rewrite !fmap_app; set_solver. }
    constructor.
    - pose proof (kvs_ne s) as Hne. destruct (kvs s) as [|[x v] l] eqn:Ek; [done|].
      assert (x ∈ keys s) as Hx. { unfold keys. rewrite Ek. cbn. by left. }
      pose proof (keys_wf _ Hws) as Hkw. rewrite Forall_forall in Hkw, Hs. specialize (Hkw _ Hx). destruct (Hs _ Hx) as [Hx1 Hx2].
      destruct (Hfs _ Hx) as [Hne' Hlog].
      destruct (same_crit x k k' p) as [H1 H2]; [done..| | |done|done|].
      + eapply pre_trans; [apply pre_sym; exact Hx1|done].
      + rewrite Hx2, Hb. by destruct b.
      + split; [by eapply pre_trans|]. rewrite Hx2 in H2. by destruct b, (bit k' p).
    - apply IH; [done..|]. intros x Hx. apply Hf. cbn [entsL entsR]. rewrite !fmap_app in *. set_solver.
  Qed.

  Lemma cb_rekey_ok k k' t l :
    k < W128 → k' < W128 → I t l → may_rekey N.eqb fits_bits l k k' = true →
    ∃ i kv t', cb_get_addr t k = Val i ∧ cb_entry t i = Val kv ∧ cb_set_node_key i k' t = Ret () t' ∧
      kv ∈ l ∧ (kv.1 =? k) = true ∧ I t' (rekeyed N.eqb k k' l).
  Proof.
    intros Hk Hk' (E & [[Ht ->]|(U & HR & Hw & ->)] & <-) Hm; [done|].
    pose proof (cb_addr_ok _ _ _ _ _ HR Hw Hk) as Had. pose proof (descend_pos _ _ Hw Hk) as HP.
    destruct (descend k [] U) as [ctx U']. cbn [fst snd] in *. pose proof (pos_kvs _ _ _ _ HP) as Hkv.
    change ((ents U).*2.*2) with (kvs U) in *.
    destruct (hit k U') eqn:Eh.
    2:{ exfalso. destruct (pos_absent _ _ _ _ Hk HP Eh) as (A & B & HU & Hb & Ha & _). apply may_present in Hm as (kv & Hin & He).
        apply N.eqb_eq in He. rewrite HU in Hin. unfold below, above in *. rewrite Forall_forall in Hb, Ha.
        apply elem_of_app in Hin as [Hin|Hin]; [apply Hb in Hin|apply Ha in Hin]; cbv beta in Hin; rewrite He, N.compare_refl in Hin; done. }
    pose proof (pos_below _ _ _ _ Hk HP) as Hb. pose proof (pos_above _ _ _ _ Hk HP) as Ha.
    apply hit_CL in Eh as (i & j & v & ->). cbn [croot] in Had. pose proof (pos_eq _ _ _ _ HP) as HU. subst U.
    change (kvs (CL i k j v)) with [(k, v)] in Hkv.
    assert ((i, (j, (k, v))) ∈ ents (plug ctx (CL i k j v))) as Hin. { rewrite ents_plug. cbn [ents]. set_solver. }
    destruct (entry_ok _ _ _ _ _ HR Hin) as [Hent Hnz]. cbn [fst snd] in Hent, Hnz.
    assert (∀ x, x ∈ (entsL ctx ++ entsR ctx).*2.*2.*1 → (x =? k) = false) as Hother.
    { intros x Hx. apply N.eqb_neq. intros ->. rewrite !fmap_app in Hx. unfold below, above in *. rewrite Forall_forall in Hb, Ha.
      apply elem_of_app in Hx as [Hx|Hx]; apply elem_of_list_fmap in Hx as (kv & Hx & Hin'); [apply Hb in Hin'|apply Ha in Hin'];
        cbv beta in Hin'; rewrite <- Hx, N.compare_refl in Hin'; done. }
    assert (adm ctx k') as Hadm.
    { apply (adm_rekey ctx k k'); [apply HP|apply HP|done|done|]. intros x Hx. pose proof (Hother _ Hx) as Hxk.
      apply andb_prop in Hm as [_ Hf]. rewrite forallb_forall in Hf.
      apply elem_of_list_fmap in Hx as (kv & -> & Hx).
      specialize (Hf kv). rewrite Hkv in Hf. unfold fits_bits in Hf. rewrite Hxk in Hf.
      assert ((false || negb (kv.1 =? k') && (N.log2 (N.lxor kv.1 k') =? N.log2 (N.lxor kv.1 k))) = true) as Hf2.
      { apply Hf, elem_of_list_In. rewrite !fmap_app in Hx. set_solver. }
      cbn [orb] in Hf2. apply andb_prop in Hf2 as [H1 H2]. apply negb_true_iff, N.eqb_neq in H1. by apply N.eqb_eq in H2. }
    assert (wp (cb_set_node_key i k') t (λ _ t', crep nn cap t' (plug ctx (CL i k' j v)))) as Hwp.
    { destruct HR as [Hr (fr & Ho & Hf) Hl]. destruct t as [rt nd lv]. cbn [cb_root cb_nodes cb_leaves] in *. unfold cb_set_node_key.
      apply wp_onn. eapply AOK_perm in Ho; [|apply cells_plug]. cbn [cells croot app] in Ho.
      eapply wp_get_mut; [exact Ho|reflexivity|]. intros a' Ho'. constructor; cbn [cb_root cb_nodes cb_leaves].
      - rewrite Hr. by apply croot_plug.
      - exists fr. split; [|done]. eapply AOK_perm; [exact Ho'|]. by rewrite cells_plug.
      - unfold lcells in *. rewrite ents_plug in *. cbn [ents] in *. rewrite !map_app in *. exact Hl. }
    apply wp_elim in Hwp as ([] & t' & Hs & HR').
    exists i, (k, v), t'. split_and!; [done|done|done|rewrite Hkv; set_solver|apply N.eqb_refl|].
    exists (ents (plug ctx (CL i k' j v))). split.
    - right. exists (plug ctx (CL i k' j v)). split_and!; [done| |done]. apply wf_plug. split_and!; [done|apply HP|].
      unfold keys. cbn. by repeat constructor.
    - change ((ents (plug ctx (CL i k' j v))).*2.*2) with (kvs (plug ctx (CL i k' j v))). rewrite kvs_plug, Hkv.
      change (kvs (CL i k' j v)) with [(k', v)]. unfold rekeyed. rewrite !map_app. cbn [map fst snd]. rewrite N.eqb_refl.
      assert (∀ A : list (N * V), (∀ x, x ∈ A.*1 → (x =? k) = false) → map (λ kv, if kv.1 =? k then (k', kv.2) else kv) A = A) as Hid.
      { intros A HA. apply (rekeyed_others N.eqb). apply Forall_forall. intros x Hx. apply HA. by apply elem_of_list_fmap_1. }
      rewrite !Hid; [done|..]; intros x Hx; apply Hother; rewrite !fmap_app; set_solver.
  Qed.
  Lemma cb_rekey_run ops t l :
    Forall u128_kop ops → I t l →
    k_run (λ o l r l', cb_spec cap o l = (r, l')) N.eqb fits_bits ops l
      (history (k_step cb_step cb_get_addr cb_entry cb_set_node_key) ops t).1.
  Proof using Hc Hnn.
    intros Hu Hi. apply (k_run_ok _ _ _ _ _ _ _ u128_kop (λ t l, I t l)); [| |done|done].
    - intros o s l0 Ho (E & HE & <-). destruct (cb_step_ok nn cap Hc Hnn o s E Ho HE) as (H1 & E' & HE' & HEE & _).
      exists E'.*2.*2. rewrite H1, HEE. split; [by destruct (cb_spec cap o E.*2.*2)|]. by exists E'.
    - intros k k' s l0 [Hk Hk']. by apply cb_rekey_ok.
  Qed.
End cb.
