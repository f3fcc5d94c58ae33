(** * Slots of the red-black tree *)
From Verif Require Import SlotMap.
From Verif Require Export RBMain.

Section rb.
  Context `{Profile} {K V : Type} (cmp : K → K → comparison) (HO : OrdLaws cmp) (ms : nat) (d : K * V).
  Context (H0 : (0 < ms)%nat) (Hw : N.of_nat ms + 1 < W32).
  Notation cap := (N.of_nat ms).
  Notation ents := (list (N * (K * V))).
  Notation pj := (pj (@id (K * V)%type)).
  Notation after := (rb_after cmp ms d).
  Notation holds := (rb_holds cmp ms d).
  Definition RI (G : Ghost (K * V)) : rbt K V → ents → Prop := RBI (G:=G) cmp cap.
  Notation SI := (SI (@id (K * V)%type) d RI).

  Lemma rb_Hch G t X : RI G t X → ∃ cs, CH (G:=G) 4 cap (rb_al t) cs ∧ live cs ≡ₚ map pj X.
  Proof using Type. clear. intros (U & [[Hc _] _ _] & <-). eexists. split; [exact Hc|]. rewrite pj_id. apply live_cells. Qed.
  Lemma rb_Hconv G G' t X :
    RI G t X → (∀ cs, CH (G:=G) 4 cap (rb_al t) cs → live cs ≡ₚ map pj X → CH (G:=G') 4 cap (rb_al t) cs) → RI G' t X.
  Proof using Type.
    clear. intros (U & [[Hc Hr] Hb Ha] & <-) Hcv. exists U. split; [|done]. split; [split; [|exact Hr]|exact Hb|exact Ha].
    apply Hcv; [exact Hc|]. rewrite pj_id. apply live_cells.
  Qed.
  Lemma rb_slot_step L B t X o : SI L B t X → ∃ X' L' B', SI L' B' (call (rb_step cmp o) t).2 X' ∧ SR X L B X' L' B'.
  Proof using HO H0 Hw.
    intros HS. destruct o as [o|].
    - change (rb_step cmp (Some o)) with (om_step (rb_api (V:=V) cmp) o). revert HS.
      apply (om_slot_step _ cmp 4 cap d (@rb_al K V) RI rb_Hch rb_Hconv).
      + intros G GA s E k v (U & Hok & <-). apply (wp_insert cmp HO cap _ _ _ _ _ Hok); [lia|]. intros o' t' U' Hok' Hr _.
        exists (entries U'). split; [by exists U'|done].
      + intros G GA s E k f (U & Hok & <-). apply (wp_get_mut' cmp HO cap _ _ _ _ _ Hok). intros o' t' U' Hok' Hr _ _.
        exists (entries U'). split; [by exists U'|done].
      + intros G GA s E sc (U & Hok & <-). apply (rb_iterate_mut_ok cmp cap _ _ _ _ Hok). intros t' U' Hok' _ He. by exists U'.
      + intros G GR s E k (U & Hok & <-). apply (wp_remove cmp HO cap _ _ _ _ Hok). intros o' t' U' Hok' Hr _.
        exists (entries U'). split; [by exists U'|done].
      + intros s k f o' s' Hg. simpl in *. unfold rb_index_mut, mbind, M_bind. rewrite Hg. by destruct o'.
    - pose proof (SI_rem _ _ _ d (@rb_al K V) RI rb_Hconv _ _ _ _ HS) as HM.
      assert (∃ r t', rb_remove_root t = Ret r t' ∧ (t' = t ∨ ∃ k o E', RI (ghost_rem (map pj X) (map pj L) B d) t' E' ∧ rem_rel cmp k X o E')) as (r & t' & He & Hr).
      { destruct HM as (U & Hok & <-). pose proof (ghost_rem_rem (map pj (entries U)) (map pj L) B d) as GR.
        assert (wp rb_remove_root t (λ _ t', t' = t ∨ ∃ k o E', RI (ghost_rem (map pj (entries U)) (map pj L) B d) t' E' ∧ rem_rel cmp k (entries U) o E')) as Hwp.
        { apply (wp_remove_root cmp HO cap _ _ _ Hok); [by left|].
          intros m l i kv r t' U' -> Hok' _ Hrel. right. eexists _, _, (entries U'). split; [by exists U'|exact Hrel]. }
        destruct (wp_elim _ _ _ Hwp) as (r & t' & He & Hr). by exists r, t'. }
      unfold call, rb_step, mbind, M_bind. rewrite He. simpl. destruct Hr as [->|(k & o & E' & HR & Hrel)].
      + exists X, L, B. split; [done|by apply SR_same].
      + by eapply (rem_step cmp 4 cap d (@rb_al K V) RI rb_Hch rb_Hconv).
  Qed.
  Lemma rb_SI_new : SI [] 1 (rb_new ms d) [].
  Proof using H0 Hw.
    exists Lf. split; [|done]. split.
    - split; [|done]. apply CH_new_is; [done|done|lia].
    - split; [done|]. exists 0%nat. constructor.
    - constructor.
  Qed.
  Lemma rb_follow (o : list (option (om_op K V))) ls :
    trace holds o ls →
    let m := slots_after (cmp_same cmp) ls in
    (∀ k, rb_get_addr cmp (after o) k = Val (slot_of (cmp_same cmp) k m)) ∧
    (∀ kv, kv ∈ List.last ls [] → rb_get_node (after o) (slot_of (cmp_same cmp) kv.1 m) = Val kv) ∧
    unused (rb_al (after o)) 4 d (sl_left m) (sl_next m) ∧ sl_next m = 1 + peak ls.
  Proof using HO H0 Hw.
    intros Htr m. pose proof (cmp_same_laws cmp HO) as HL.
    destruct (slots_follow (cmp_same cmp) _ HL after (λ t x, (call (rb_step cmp x) t).2) (λ _, True) holds SI) with (o := o) (ls := ls)
      as (X & L & B & HS & HM & Hl & HB); [..|exact Htr|].
    - intros o' x. unfold rb_after. by rewrite hist_snoc.
    - exact rb_SI_new.
    - intros L B s X x _ HS. by apply rb_slot_step.
    - intros o' l L B X Hh HS. destruct (rb_iter_fact cmp HO ms d H0 Hw o' l Hh) as [_ Hit].
      assert (l = X.*2) as ->; [|done]. apply de_spec_inj. intros sc. specialize (Hit sc).
      destruct HS as (U & [HR _ _] & <-). rewrite (rb_iterate_ok cap _ _ _ HR) in Hit. by injection Hit as ->.
    - intros L B s X (U & [_ _ Ha] & <-). by apply asc_distinct.
    - intros L B s X HS. by eapply (SI_count _ 4 cap d (@rb_al K V) RI rb_Hch).
    - by apply Forall_true.
    - fold m in HM. assert (distinct_keys (cmp_same cmp) X.*2) as Hd. { destruct HS as (U & [_ _ Ha] & <-). by apply asc_distinct. }
      destruct HM as (HMa & HMl & HMn). assert (MM m X L B) as HM by by split_and!.
      assert (∀ i kv, (i, kv) ∈ X → rb_get_node (after o) i = Val kv) as Hnode.
      { intros i kv Hin. destruct HS as (U & [HR _ _] & <-). exact (rb_node_ok cap _ _ _ _ HR Hin). }
      split_and!.
      + intros k. destruct HS as (U & Hok & HU). destruct (rb_addr_ok cmp HO cap _ _ k Hok) as (i & kvo & Hr & Haddr & _). rewrite Haddr.
        rewrite HU in Hr. f_equal. symmetry. destruct Hr as [A C i kv -> Hnz Hc Hb Ha|A C -> Hb Ha].
        * eapply slot_of_in; [exact HL|exact HM|exact Hd| |]. { apply elem_of_app. right. apply elem_of_list_here. }
          unfold cmp_same. rewrite (cmp_sym _ HO). by rewrite Hc.
        * eapply slot_of_none; [exact HM|]. apply Forall_forall. intros [i kv] Hin. unfold cmp_same. rewrite (cmp_sym _ HO). simpl.
          apply elem_of_app in Hin as [Hin|Hin]; apply (elem_of_list_fmap_1 snd) in Hin.
          -- by rewrite (below_mem cmp k _ _ Hb Hin : cmp k kv.1 = Gt).
          -- by rewrite (above_mem cmp k _ _ Ha Hin : cmp k kv.1 = Lt).
      + intros kv Hin. rewrite Hl in Hin. apply elem_of_list_fmap in Hin as ([i kv'] & -> & Hin). cbn [snd].
        rewrite (slot_of_in _ _ HL m X L B i kv' kv'.1 HM Hd Hin (keq_refl _ _ HL _)). by apply Hnode.
      + rewrite HMl, HMn. rewrite <- (pj_id L). by eapply (SI_unused _ 4 cap d (@rb_al K V) RI rb_Hch).
      + by rewrite HMn.
  Qed.
End rb.
