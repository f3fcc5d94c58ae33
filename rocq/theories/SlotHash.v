(** * Slots of the hash table *)
From Verif Require Import SlotMap.
From Verif Require Export HashMain.

Lemma fw_spec_inj {A} (l l' : list A) : (∀ sc, fw_spec sc l = fw_spec sc l') → l = l'.
Proof.
  intros He. specialize (He (replicate (length l + length l') Fwd)).
  rewrite fw_spec_all in He. rewrite (Nat.add_comm (length l)), fw_spec_all in He.
  apply (f_equal (omap id)) in He. rewrite !omap_app in He.
  assert (∀ l : list A, omap id (map Some l) = l) as H1 by (intros l0; induction l0 as [|x l0 IH]; [done|]; change (x :: omap id (map Some l0) = x :: l0); by rewrite IH).
  assert (∀ n, omap id (replicate n (@None A)) = []) as H2 by (intros n; induction n as [|n IH]; [done|exact IH]).
  by rewrite !H1, !H2, !app_nil_r in He.
Qed.

Section ht.
  Context `{Profile} {K V : Type} (keq : K → K → bool) (hash : K → N) (HL : HashLaws keq hash) (nb ms : nat) (d : K * V).
  Context (h0 : htable K V) (Hnew : ht_new nb ms d = Some h0) (Hnb : (0 < nb)%nat) (Hw : N.of_nat ms + 1 < W32).
  Notation cap := (N.of_nat ms).
  Notation ents := (list (N * (K * V))).
  Notation pj := (pj (@id (K * V)%type)).
  Notation after := (ht_after keq hash h0).
  Notation holds := (ht_holds keq hash ms h0).
  Definition HTI (G : Ghost (K * V)) : htable K V → ents → Prop := HI (G:=G) keq hash cap.
  Notation SI := (SI (@id (K * V)%type) d HTI).

  Lemma live_hcells (bs : list ents) : live (hcells bs) = concat bs.
  Proof using Type.
    clear. unfold live, hcells. induction bs as [|es bs IH]; [done|]. simpl. rewrite map_app, IH. f_equal. generalize 0 at 1.
    induction es as [|[i kv] es IHe]; intros p; simpl; [done|]. by rewrite IHe.
  Qed.
  Lemma ht_Hch G h X : HTI G h X → ∃ cs, CH (G:=G) 4 cap (ht_al h) cs ∧ live cs ≡ₚ map pj X.
  Proof using Type. clear. intros (bs & [Hc _ _ _ _] & Hp). eexists. split; [exact Hc|]. rewrite pj_id, live_hcells. by symmetry. Qed.
  Lemma ht_Hconv G G' h X :
    HTI G h X → (∀ cs, CH (G:=G) 4 cap (ht_al h) cs → live cs ≡ₚ map pj X → CH (G:=G') 4 cap (ht_al h) cs) → HTI G' h X.
  Proof using Type.
    clear. intros (bs & [Hc Hb Hn Hh Hk] & Hp) Hcv. exists bs. split; [|done]. constructor; [|done..].
    apply Hcv; [exact Hc|]. rewrite pj_id, live_hcells. by symmetry.
  Qed.
  Lemma ht_SI_new : SI [] 1 h0 [].
  Proof using Hnew Hnb Hw.
    unfold ht_new in Hnew. case_decide; [|done]. injection Hnew as <-. exists (replicate nb []).
    assert (concat (replicate nb (@nil (N * (K * V)))) = []) as Hc by (clear; induction nb; simpl; done).
    split; [|by rewrite Hc]. constructor; simpl.
    - assert (hcells (replicate nb (@nil (N * (K * V)))) = []) as ->.
      { unfold hcells. clear. induction nb; simpl; done. }
      apply CH_new_is; [done|done|lia].
    - clear. induction nb as [|n IH]; simpl; [done|]. by rewrite IH.
    - destruct nb; [lia|done].
    - intros b es [-> _]%lookup_replicate. constructor.
    - rewrite Hc. constructor.
  Qed.
  Lemma ht_slot_step L B h X o : SI L B h X → ∃ X' L' B', SI L' B' (call (ht_step keq hash o) h).2 X' ∧ SR X L B X' L' B'.
  Proof using HL. clear Hnew Hnb Hw.
    intros HS. pose proof (SI_add _ _ _ d (@ht_al K V) HTI ht_Hconv _ _ _ _ HS) as HA.
    pose proof (SI_rem _ _ _ d (@ht_al K V) HTI ht_Hconv _ _ _ _ HS) as HM.
    assert (∀ h' X', HTI (ghost_add (map pj L) B d) h' X' → map sk X' ≡ₚ map sk X → ∃ X' L' B', SI L' B' h' X' ∧ SR X L B X' L' B') as Hsame.
    { intros h' X' HA' Hp. exists X', L, B. split; [|by apply SR_same]. by eapply (pin_same _ 4 cap d (@ht_al K V) HTI ht_Hch ht_Hconv). }
    assert (∃ X' L' B', SI L' B' h X' ∧ SR X L B X' L' B') as Hread by (exists X, L, B; split; [done|by apply SR_same]).
    pose proof (λ k, HI_case _ _ HL _ _ _ k HS) as Hcase.
    pose proof (ghost_add_add (map pj L) B d) as GA. pose proof (ghost_rem_rem (map pj X) (map pj L) B d) as GR.
    destruct o as [k v|k|k|k f|k|k| | | |k|k f|n|fs]; cbn [ht_step].
    - destruct (Hcase k) as [(i & kv & R & H1 & H2 & H3)|H3].
      + destruct (wp_elim _ _ _ (ht_insert_found _ _ HL _ _ _ k v _ _ _ HA H1 H2)) as (o & h' & He & -> & HA').
        unfold call, mbind, M_bind. rewrite He. cbn [snd]. eapply Hsame; [exact HA'|]. rewrite H1. done.
      + pose proof (HI_len_le _ _ _ _ _ HS). destruct (decide (lengthN X < cap)) as [Hlt|Hge].
        * destruct (wp_elim _ _ _ (ht_insert_new _ _ HL _ _ _ k v HA H3 Hlt)) as (o & h' & He & i & -> & HA').
          unfold call, mbind, M_bind. rewrite He. cbn [snd]. eexists.
          by eapply (pin_new _ 4 cap d (@ht_al K V) HTI ht_Hch ht_Hconv _ _ _ _ _ _ i k); [exact HS|exact HA'|].
        * unfold call, mbind, M_bind. rewrite (ht_insert_full _ _ HL _ _ _ k v HS H3) by lia. exact Hread.
    - destruct (Hcase k) as [(i & kv & R & H1 & H2 & H3)|H3].
      + destruct (wp_elim _ _ _ (ht_remove_found _ _ HL _ _ _ k _ _ _ HM H1 H2)) as (o & h' & He & -> & HM').
        unfold call, mbind, M_bind. rewrite He. cbn [snd]. exists R, ((i, kv) :: L), B.
        by eapply (pin_gone _ 4 cap d (@ht_al K V) HTI ht_Hch ht_Hconv); [exact HS|exact HM'| |].
      + unfold call, mbind, M_bind. rewrite (ht_remove_none _ _ HL _ _ _ k HS H3). exact Hread.
    - unfold call, mbind, M_bind, gets. by destruct (ht_get keq hash h k).
    - destruct (Hcase k) as [(i & kv & R & H1 & H2 & H3)|H3].
      + destruct (wp_elim _ _ _ (ht_get_mut_found _ _ HL _ _ _ k f _ _ _ HA H1 H2)) as (o & h' & He & -> & HA').
        unfold call, mbind, M_bind. rewrite He. cbn [snd]. eapply Hsame; [exact HA'|]. rewrite H1. done.
      + unfold call, mbind, M_bind. rewrite (ht_get_mut_none _ _ HL _ _ _ k f HS H3). exact Hread.
    - unfold call, mbind, M_bind, gets. by destruct (ht_contains_trait keq hash h k).
    - unfold call, mbind, M_bind, gets. by destruct (ht_contains keq hash h k).
    - exact Hread.
    - exact Hread.
    - exact Hread.
    - unfold call, mbind, M_bind, gets. by destruct (ht_index keq hash h k).
    - unfold ht_index_mut. destruct (Hcase k) as [(i & kv & R & H1 & H2 & H3)|H3].
      + destruct (wp_elim _ _ _ (ht_get_mut_found _ _ HL _ _ _ k f _ _ _ HA H1 H2)) as (o & h' & He & -> & HA').
        unfold call, mbind, M_bind. rewrite He. cbn [snd]. eapply Hsame; [exact HA'|]. rewrite H1. done.
      + unfold call, mbind, M_bind. rewrite (ht_get_mut_none _ _ HL _ _ _ k f HS H3). exact Hread.
    - unfold call, mbind, M_bind, gets. by destruct (ht_iterate h _).
    - destruct HA as (bs & Hok & Hp).
      assert (wp (ht_iterate_mut (map (λ f, (Fwd, f)) fs)) h (λ o h',
        ∃ bs', HOK (G:=ghost_add (map pj L) B d) keq hash cap h' bs' ∧ concat bs' = (fw_mut_spec hupd (map (λ f, (Fwd, f)) fs) (concat bs)).2)) as Hwp.
      { apply (ht_iterate_mut_ok _ _ HL _ _ _ _ _ Hok). intros h' bs' Hok' He. by exists bs'. }
      destruct (wp_elim _ _ _ Hwp) as (o & h' & He & bs' & Hok' & Hc).
      unfold call, mbind, M_bind. rewrite He. cbn [snd]. apply (Hsame h' (concat bs')); [by exists bs'|].
      rewrite Hc. rewrite (fw_mut_spec_keys hupd sk); [by rewrite Hp|done].
  Qed.
  (** The contents need to be known up to their order only *)
  Notation holds' := (λ o l, ∃ l0, holds o l0 ∧ l ≡ₚ l0).
  Lemma ht_follow_perm (o : list (hm_op K V)) ls :
    trace holds' o ls →
    let m := slots_after keq ls in
    (∀ k, ht_get_addr keq hash (after o) k = Val (slot_of keq k m)) ∧
    (∀ kv, kv ∈ List.last ls [] → ht_get_node (after o) (slot_of keq kv.1 m) = Val kv) ∧
    unused (ht_al (after o)) 4 d (sl_left m) (sl_next m) ∧ sl_next m = 1 + peak ls.
  Proof using HL Hnew Hnb Hw.
    intros Htr m.
    destruct (slots_follow keq hash HL after (λ t x, (call (ht_step keq hash x) t).2) (λ _, True) holds' SI) with (o := o) (ls := ls)
      as (X & L & B & HS & HM & Hl & HB); [..|exact Htr|].
    - intros o' x. unfold ht_after. by rewrite hist_snoc.
    - exact ht_SI_new.
    - intros L B s X x _ HS. by apply ht_slot_step.
    - intros o' l L B X (l0 & Hh & ->) HS. destruct (ht_reach keq hash HL nb ms d h0 Hnew Hnb Hw o' l0 Hh) as (E & (bs & Hok & Hp) & <-).
      destruct HS as (bs' & Hok' & Hp'). rewrite Hp, Hp'. assert ((concat bs).*2 = (concat bs').*2) as ->; [|done].
      apply fw_spec_inj. intros sc. pose proof (ht_iterate_ok _ _ _ _ _ sc Hok) as H1. rewrite (ht_iterate_ok _ _ _ _ _ sc Hok') in H1. by injection H1.
    - intros L B s X HS. by apply (HI_keys _ _ HL _ _ _ HS).
    - intros L B s X HS. by eapply (SI_count _ 4 cap d (@ht_al K V) HTI ht_Hch).
    - by apply Forall_true.
    - fold m in HM. pose proof (HI_keys _ _ HL _ _ _ HS) as Hd.
      destruct HM as (HMa & HMl & HMn). assert (MM m X L B) as HM by by split_and!.
      split_and!.
      + intros k. destruct (HI_case _ _ HL _ _ _ k HS) as [(i & kv & R & H1 & H2 & H3)|Hn].
        * destruct (ht_found _ _ HL _ _ _ _ _ _ _ HS H1 H2) as (_ & _ & _ & Ha & _). rewrite Ha. f_equal. symmetry.
          eapply slot_of_in; [exact HL|exact HM|exact Hd| |exact H2]. rewrite H1. apply elem_of_list_here.
        * destruct (ht_absent _ _ HL _ _ _ _ HS Hn) as (_ & _ & _ & Ha & _). rewrite Ha. f_equal. symmetry. by eapply slot_of_none.
      + intros kv Hin. rewrite Hl in Hin. apply elem_of_list_fmap in Hin as ([i kv'] & -> & Hin). cbn [snd].
        rewrite (slot_of_in _ _ HL m X L B i kv' kv'.1 HM Hd Hin (keq_refl _ _ HL _)).
        apply elem_of_Permutation in Hin as [R HR].
        by destruct (ht_found _ _ HL _ _ _ kv'.1 _ _ _ HS HR (keq_refl _ _ HL _)) as (_ & _ & _ & _ & Ha & _).
      + rewrite HMl, HMn. rewrite <- (pj_id L). by eapply (SI_unused _ 4 cap d (@ht_al K V) HTI ht_Hch).
      + by rewrite HMn.
  Qed.
  Lemma ht_follow (o : list (hm_op K V)) ls :
    trace holds o ls →
    let m := slots_after keq ls in
    (∀ k, ht_get_addr keq hash (after o) k = Val (slot_of keq k m)) ∧
    (∀ kv, kv ∈ List.last ls [] → ht_get_node (after o) (slot_of keq kv.1 m) = Val kv) ∧
    unused (ht_al (after o)) 4 d (sl_left m) (sl_next m) ∧ sl_next m = 1 + peak ls.
  Proof using HL Hnew Hnb Hw. intros [Hl Ht]. apply ht_follow_perm. split; [done|]. intros n l Hn. exists l. split; [by apply Ht|done]. Qed.
End ht.
