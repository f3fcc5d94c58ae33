(** * Slots of the AVL tree *)
From Verif Require Import SlotMap.
From Verif Require Export AVLMain.

Section av.
  Context `{Profile} {K V : Type} (pcmp : K → K → option comparison) (HO : OrdLaws (po_cmp pcmp)) (ms : nat) (d : K * V).
  Context (H0 : (0 < ms)%nat) (Hw : N.of_nat ms + 1 < W32).
  Notation cmp := (po_cmp pcmp).
  Notation cap := (N.of_nat ms).
  Notation ents := (list (N * (K * V))).
  Notation pj := (pj (@id (K * V)%type)).
  Notation after := (av_after pcmp ms d).
  Notation holds := (λ o l, l = om_contents pcmp ms o).
  Definition AI (G : Ghost (K * V)) : avlt K V → ents → Prop := AVI (G:=G) pcmp cap.
  Notation SI := (SI (@id (K * V)%type) d AI).

  Lemma av_Hch G t X : AI G t X → ∃ cs, CH (G:=G) 4 cap (av_al t) cs ∧ live cs ≡ₚ map pj X.
  Proof using Type. clear. intros (U & [[Hc _] _ _] & <-). eexists. split; [exact Hc|]. rewrite pj_id. apply live_cells. Qed.
  Lemma av_Hconv G G' t X :
    AI G t X → (∀ cs, CH (G:=G) 4 cap (av_al t) cs → live cs ≡ₚ map pj X → CH (G:=G') 4 cap (av_al t) cs) → AI G' t X.
  Proof using Type.
    clear. intros (U & [[Hc Hr] Hb Ha] & <-) Hcv. exists U. split; [|done]. split; [split; [|exact Hr]|exact Hb|exact Ha].
    apply Hcv; [exact Hc|]. rewrite pj_id. apply live_cells.
  Qed.
  Lemma av_slot_step L B t X o : SI L B t X → ∃ X' L' B', SI L' B' (call (av_step pcmp o) t).2 X' ∧ SR X L B X' L' B'.
  Proof using HO H0 Hw.
    intros HS. revert HS.
      apply (om_slot_step _ cmp 4 cap d (@av_al K V) AI av_Hch av_Hconv).
      + intros G GA s E k v (U & Hok & <-). apply (wp_insert pcmp HO cap _ _ _ _ _ Hok); [lia|]. intros o' t' U' Hok' Hr _.
        exists (entries U'). split; [by exists U'|done].
      + intros G GA s E k f (U & Hok & <-). apply (wp_get_mut' pcmp HO cap _ _ _ _ _ Hok). intros o' t' U' Hok' Hr _ _.
        exists (entries U'). split; [by exists U'|done].
      + intros G GA s E sc (U & Hok & <-). apply (av_iterate_mut_ok pcmp cap _ _ _ _ Hok). intros t' U' Hok' _ He. by exists U'.
      + intros G GR s E k (U & Hok & <-). apply (wp_remove pcmp HO cap _ _ _ _ Hok). intros o' t' U' Hok' Hr _.
        exists (entries U'). split; [by exists U'|done].
      + intros s k f o' s' Hg. simpl in *. unfold av_index_mut, mbind, M_bind. rewrite Hg. by destruct o'.
  Qed.
  Lemma av_SI_new : SI [] 1 (av_new ms d) [].
  Proof using H0 Hw.
    exists Lf. split; [|done]. split.
    - split; [|done]. apply CH_new_is; [done|done|lia].
    - constructor.
    - constructor.
  Qed.
  Lemma av_follow (o : list (om_op K V)) ls :
    trace holds o ls →
    let m := slots_after (cmp_same cmp) ls in
    (∀ k, av_get_addr pcmp (after o) k = Val (slot_of (cmp_same cmp) k m)) ∧
    (∀ kv, kv ∈ List.last ls [] → av_get_node (after o) (slot_of (cmp_same cmp) kv.1 m) = Val kv) ∧
    unused (av_al (after o)) 4 d (sl_left m) (sl_next m) ∧ sl_next m = 1 + peak ls.
  Proof using HO H0 Hw.
    intros Htr m. pose proof (cmp_same_laws cmp HO) as HL.
    destruct (slots_follow (cmp_same cmp) _ HL after (λ t x, (call (av_step pcmp x) t).2) (λ _, True) holds SI) with (o := o) (ls := ls)
      as (X & L & B & HS & HM & Hl & HB); [..|exact Htr|].
    - intros o' x. unfold av_after. by rewrite hist_snoc.
    - exact av_SI_new.
    - intros L B s X x _ HS. by apply av_slot_step.
    - intros o' l L B X -> HS. destruct (av_iter_fact pcmp HO ms d H0 Hw o') as [_ Hit].
      assert (om_contents pcmp ms o' = X.*2) as ->; [|done]. apply de_spec_inj. intros sc. specialize (Hit sc).
      destruct HS as (U & [HR _ _] & <-). rewrite (av_iterate_ok cap _ _ _ HR) in Hit. by injection Hit as ->.
    - intros L B s X (U & [_ _ Ha] & <-). by apply asc_distinct.
    - intros L B s X HS. by eapply (SI_count _ 4 cap d (@av_al K V) AI av_Hch).
    - by apply Forall_true.
    - fold m in HM. assert (distinct_keys (cmp_same cmp) X.*2) as Hd. { destruct HS as (U & [_ _ Ha] & <-). by apply asc_distinct. }
      destruct HM as (HMa & HMl & HMn). assert (MM m X L B) as HM by by split_and!.
      assert (∀ i kv, (i, kv) ∈ X → av_get_node (after o) i = Val kv) as Hnode.
      { intros i kv Hin. destruct HS as (U & [HR _ _] & <-). exact (av_node_ok cap _ _ _ _ HR Hin). }
      split_and!.
      + intros k. destruct HS as (U & Hok & HU). destruct (av_addr_ok pcmp HO cap _ _ k Hok) as (i & kvo & Hr & Haddr & _). rewrite Haddr.
        rewrite HU in Hr. f_equal. symmetry. destruct Hr as [A C i kv -> Hnz Hc Hb Ha|A C -> Hb Ha].
        * eapply slot_of_in; [exact HL|exact HM|exact Hd| |]. { apply elem_of_app. right. apply elem_of_list_here. }
          unfold cmp_same. rewrite (cmp_sym _ HO). by rewrite (Hc : po_cmp pcmp k kv.1 = Eq).
        * eapply slot_of_none; [exact HM|]. apply Forall_forall. intros [i kv] Hin. unfold cmp_same. rewrite (cmp_sym _ HO). simpl.
          apply elem_of_app in Hin as [Hin|Hin]; apply (elem_of_list_fmap_1 snd) in Hin.
          -- by rewrite (below_mem (po_cmp pcmp) k _ _ Hb Hin : cmp k kv.1 = Gt).
          -- by rewrite (above_mem (po_cmp pcmp) k _ _ Ha Hin : cmp k kv.1 = Lt).
      + intros kv Hin. rewrite Hl in Hin. apply elem_of_list_fmap in Hin as ([i kv'] & -> & Hin). cbn [snd].
        rewrite (slot_of_in _ _ HL m X L B i kv' kv'.1 HM Hd Hin (keq_refl _ _ HL _)). by apply Hnode.
      + rewrite HMl, HMn. rewrite <- (pj_id L). by eapply (SI_unused _ 4 cap d (@av_al K V) AI av_Hch).
      + by rewrite HMn.
  Qed.
End av.
