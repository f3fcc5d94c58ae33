(** * Slots of the value pool of Critbit *)
From Verif Require Import SlotMap MapFacts.
From Verif Require Export CritMain.

Section cb.
  Context `{Profile} {V : Type} (nn ms : nat) (d : V) (t0 : critbit V) (H0 : (0 < ms)%nat) (Hw : N.of_nat nn + 1 < W32)
    (Hnew : cb_new nn ms d = Some t0).
  Notation cap := (N.of_nat ms).
  Notation cmp := N.compare.
  Notation ents := (list (N * (N * V))).
  Notation pj := (SlotMap.pj (snd (A:=N) (B:=V))).
  Notation sk := SlotProof.sk.
  Notation after o := (history cb_step o t0).2.
  Notation contents := (cb_contents (V:=V) ms).
  Definition CI (G : Ghost V) (t : critbit V) (X : ents) : Prop := ∃ E, cbok (G:=G) (N.of_nat nn) cap t E ∧ X = E.*2.
  Notation SI := (SlotMap.SI (snd (A:=N) (B:=V)) d CI).

  Lemma live_lcells (U : ctree V) : live (lcells U) = map pj (CritProof.ents U).*2.
  Proof using Type. clear. unfold live, lcells. rewrite map_map, <- list_fmap_compose. apply map_ext. by intros [i [j [k v]]]. Qed.
  Lemma cb_Hch G t X : CI G t X → ∃ cs, CH (G:=G) 4 cap (cb_leaves t) cs ∧ live cs ≡ₚ map pj X.
  Proof using Type.
    clear. intros (E & [[[_ _ Hl] ->]|(U & [_ _ Hl] & _ & ->)] & ->); (eexists; split; [exact Hl|]); [done|]. by rewrite live_lcells.
  Qed.
  Lemma cb_Hconv G G' t X :
    CI G t X → (∀ cs, CH (G:=G) 4 cap (cb_leaves t) cs → live cs ≡ₚ map pj X → CH (G:=G') 4 cap (cb_leaves t) cs) → CI G' t X.
  Proof using Type.
    clear. intros (E & HE & ->) Hcv. exists E. split; [|done]. destruct HE as [[[H1 H2 Hl] ->]|(U & [H1 H2 Hl] & HU & ->)].
    - left. split; [|done]. constructor; [done|done|]. by apply Hcv.
    - right. exists U. split_and!; [|done|done]. constructor; [done|done|]. apply Hcv; [done|]. by rewrite live_lcells.
  Qed.
  Lemma cb_SI_new : SI [] 1 t0 [].
  Proof using All.
    unfold cb_new in Hnew. destruct (decide _) as [Hd|]; [|done]. injection Hnew as <-. exists []. split; [|done].
    left. split; [|done]. constructor; cbn [cb_root cb_nodes cb_leaves]; [done| |].
    - exists []. split_and!; [apply na_new_ok; done || lia|constructor|done].
    - apply CH_new_is; done || lia.
  Qed.
  Lemma keeps_sub o (E E' : list (N * (N * (N * V)))) Y :
    ckeeps o E E' → NoDup E.*2.*1 → Y ⊆+ E.*2 → (∀ j k v, (j, (k, v)) ∈ Y → o ≠ MRemove k) → map sk Y ⊆+ map sk E'.*2.
  Proof using Type.
    clear. intros [Hk _] Hn Hs Ho. apply NoDup_submseteq.
    - assert (NoDup Y.*1) as HY by (eapply IterProof.NoDup_submseteq; [by apply fmap_submseteq|exact Hn]).
      apply (NoDup_fmap_1 fst). change (fst <$> map sk Y) with (map fst (map sk Y)). rewrite map_map. exact HY.
    - intros [j k] Hin. apply elem_of_list_fmap in Hin as ([j' [k' v]] & Heq & Hin). unfold sk in Heq. simpl in Heq. injection Heq as -> ->. pose proof (Ho _ _ _ Hin) as Hne.
      eapply elem_of_submseteq in Hin; [|exact Hs]. apply elem_of_list_fmap in Hin as ([i e] & He & Hin). simpl in He. subst e.
      destruct (Hk _ _ _ _ Hin Hne) as (i' & v' & Hin'). apply (elem_of_list_fmap_1 snd) in Hin'. by apply (elem_of_list_fmap_1 sk) in Hin'.
  Qed.
  Lemma sk_sk (E E' : list (N * (N * (N * V)))) : map CritIter.sk E' = map CritIter.sk E → map sk E'.*2 = map sk E.*2.
  Proof using Type.
    clear. intros He. apply (f_equal (map (λ x : N * N * N, (x.1.2, x.2)))) in He. rewrite !map_map in He.
    unfold sk. rewrite <- !list_fmap_compose. exact He.
  Qed.
  Lemma insert_len k v (l : list (N * V)) : om_find cmp k l = None → length (om_insert cmp k v l) = S (length l).
  Proof using Type. clear. induction l as [|x l IH]; simpl; [done|]. destruct (k ?= x.1); [done|done|]. intros Hf. simpl. by rewrite IH. Qed.
  Lemma remove_len k x (l : list (N * V)) : om_find cmp k l = Some x → length l = S (length (om_remove cmp k l)).
  Proof using Type. clear. induction l as [|y l IH]; simpl; [done|]. destruct (k ?= y.1); [done|..]; intros Hf; simpl; by rewrite IH. Qed.
  Lemma find_mem k x (l : list (N * V)) : om_find cmp k l = Some x → x ∈ l ∧ k = x.1.
  Proof using Type.
    clear. induction l as [|y l IH]; simpl; [done|]. destruct (k ?= y.1) eqn:E.
    - intros [= ->]. split; [apply elem_of_list_here|by apply N.compare_eq].
    - intros Hf. destruct (IH Hf). split; [by apply elem_of_list_further|done].
    - intros Hf. destruct (IH Hf). split; [by apply elem_of_list_further|done].
  Qed.

  Lemma cb_slot_step L B t X o : u128_op o → SI L B t X → ∃ X' L' B', SI L' B' (call (cb_step o) t).2 X' ∧ SR X L B X' L' B'.
  Proof using All.
    intros Hu HS. pose proof (SlotMap.SI_add _ _ _ d (@cb_leaves V) CI cb_Hconv _ _ _ _ HS) as HA.
    pose proof (SlotMap.SI_rem _ _ _ d (@cb_leaves V) CI cb_Hconv _ _ _ _ HS) as HM.
    destruct (new_ok nn ms d t0 H0 Hw Hnew) as (_ & Hn & Hc).
    assert (∀ t' X', CI (ghost_add (map pj L) B d) t' X' → map sk X' ≡ₚ map sk X → ∃ X' L' B', SI L' B' t' X' ∧ SR X L B X' L' B') as Hsame.
    { intros t' X' HA' Hp. exists X', L, B. split; [|by apply SR_same]. by eapply (SlotMap.pin_same _ 4 cap d (@cb_leaves V) CI cb_Hch cb_Hconv). }
    assert (∃ X' L' B', SI L' B' t X' ∧ SR X L B X' L' B') as Hread by (exists X, L, B; split; [done|by apply SR_same]).
    pose proof (ghost_add_add (map pj L) B d) as GA. pose proof (ghost_rem_rem (map pj X) (map pj L) B d) as GR.
    destruct HA as (E & HA & HXE). destruct HM as (E2 & HM & HXE2).
    destruct (asc_facts _ _ _ _ HA) as (Hasc & _ & Hnd & _).
    destruct o as [k v|k|k|k f|k| | | | | |k|k f|sc|sc]; unfold cb_step, om_step, cb_api; cbn [a_insert a_remove a_get a_get_mut a_contains
      a_len a_capacity a_min a_max a_index a_index_mut a_iter a_iter_mut]; simpl u128_op in Hu.
    - pose proof (insert_facts _ _ Hc Hn t E k v HA Hu) as Hins. destruct (decide (lengthN E < cap)) as [Hl|Hl].
      + apply wp_elim in Hins as (o & t' & He & i & E' & -> & Hok & HE & Hk & _ & Hf).
        unfold call, mbind, M_bind. rewrite He. cbn [snd]. destruct (om_find cmp k E.*2.*2) as [kv|] eqn:Ef.
        * eapply Hsame; [exists E'; split; [exact Hok|reflexivity]|]. rewrite HXE, (sk_sk E E'); [done|]. by apply Hf.
        * assert (map sk X ⊆+ map sk E'.*2) as Hsub.
          { rewrite HXE. eapply keeps_sub; [exact Hk|done|done|done]. }
          apply submseteq_Permutation in Hsub as [Y HY].
          assert (length Y = 1%nat) as HY1.
          { apply Permutation_length in HY. rewrite app_length, !map_length in HY. apply (f_equal length) in HE.
            rewrite HXE in HY. rewrite (insert_len _ _ _ Ef) in HE. rewrite !fmap_length in HE. unfold fmap in HY. rewrite ?fmap_length, ?map_length in HY. lia. }
          destruct Y as [|[i' k'] [|]]; [done| |done].
          exists E'.*2. eapply (SlotMap.pin_new _ 4 cap d (@cb_leaves V) CI cb_Hch cb_Hconv _ _ _ _ _ _ i' k'); [exact HS|by exists E'|].
          rewrite HY. by rewrite Permutation_app_comm.
      + unfold call, mbind, M_bind. rewrite Hins. exact Hread.
    - destruct (wp_elim _ _ _ (remove_facts _ _ t E2 k HM Hu)) as (o & t' & He & E' & Hok & Ho & HE & Hk & Hnone).
      unfold call, mbind, M_bind. rewrite He. cbn [snd]. 
      destruct (om_find cmp k E2.*2.*2) as [[k' v]|] eqn:Ef.
      + destruct (find_mem _ _ _ Ef) as [Hin Hkk]. simpl in Hkk. subst k'. apply elem_of_list_fmap in Hin as ([j kv] & Heq & Hin). simpl in Heq. subst kv.
        apply elem_of_Permutation in Hin as [X0 HX0].
        destruct (asc_facts _ _ _ _ HM) as (Hasc2 & _ & Hnd2 & _).
        assert (map sk X0 ⊆+ map sk E'.*2) as Hsub.
        { eapply keeps_sub; [exact Hk|done|rewrite HX0; by apply submseteq_cons|]. intros j' k' v' Hin Heq. injection Heq as <-.
          assert (NoDup E2.*2.*2.*1) as Hdk.
          { clear -Hasc2. unfold ascending in Hasc2. induction Hasc2 as [|x l _ IH Hf]; [constructor|]. simpl. constructor; [|done].
            intros (y & He & Hin)%elem_of_list_fmap. rewrite Forall_forall in Hf. specialize (Hf y Hin). simpl in Hf. rewrite He, N.compare_refl in Hf. done. }
          rewrite HX0 in Hdk. rewrite !fmap_cons in Hdk. apply NoDup_cons in Hdk as [Hx _]. apply Hx. simpl.
          apply elem_of_list_fmap. exists (k, v'). split; [done|]. apply elem_of_list_fmap. by exists (j', (k, v')). }
        assert (map sk E'.*2 ≡ₚ map sk X0) as Hp.
        { symmetry. apply submseteq_Permutation_length_le; [|exact Hsub]. apply Permutation_length in HX0. apply (f_equal length) in HE.
          apply remove_len in Ef. rewrite !map_length. rewrite !fmap_length in *. simpl in *. lia. }
        eexists _, ((j, (k, v)) :: L), B. eapply (SlotMap.pin_gone _ 4 cap d (@cb_leaves V) CI cb_Hch cb_Hconv _ _ _ _ _ _ X0); [exact HS|by exists E'| |exact Hp].
        by rewrite HXE2.
      + rewrite Hnone; [exact Hread|]. rewrite Ho. unfold om_get. by rewrite Ef.
    - unfold call, mbind, M_bind, gets. by destruct (cb_get t k).
    - destruct (wp_elim _ _ _ (get_mut_facts _ _ t E k f HA Hu)) as (o & t' & He & E' & Hok & -> & HE & Hk & _).
      unfold call, mbind, M_bind. rewrite He. cbn [snd]. eapply Hsame; [exists E'; split; [exact Hok|reflexivity]|]. by rewrite HXE, (sk_sk E E').
    - unfold call, mbind, M_bind, gets. by destruct (cb_contains t k).
    - exact Hread.
    - exact Hread.
    - exact Hread.
    - unfold call, mbind, M_bind, gets. by destruct (cb_get_min t).
    - unfold call, mbind, M_bind, gets. by destruct (cb_get_max t).
    - unfold call, mbind, M_bind, gets. by destruct (cb_index t k).
    - destruct (wp_elim _ _ _ (get_mut_facts _ _ t E k f HA Hu)) as (o & t' & He & E' & Hok & Ho & HE & Hk & _).
      unfold call, mbind, M_bind, cb_index_mut, mbind, M_bind. rewrite He.
      destruct o; cbn [snd]; (eapply Hsame; [exists E'; split; [exact Hok|reflexivity]|]; by rewrite HXE, (sk_sk E E')).
    - unfold call, mbind, M_bind, gets. by destruct (cb_iterate t sc).
    - destruct (wp_elim _ _ _ (iter_mut_facts _ _ t E sc HA)) as (o & t' & He & -> & E' & Hok & HE & Hk & _).
      unfold call, mbind, M_bind. rewrite He. cbn [snd]. eapply Hsame; [exists E'; split; [exact Hok|reflexivity]|]. rewrite HXE. rewrite (sk_sk E E'); done.
  Qed.

  Lemma cb_follow (o : list (om_op N V)) ls :
    Forall u128_op o → trace (λ o l, l = contents o) o ls →
    let m := slots_after N.eqb ls in
    (∀ kv, kv ∈ List.last ls [] →
       cb_value_slot (after o) kv.1 = Val (slot_of N.eqb kv.1 m) ∧ cb_get_leaf (after o) (slot_of N.eqb kv.1 m) = Val kv.2) ∧
    unused (cb_leaves (after o)) 4 d (map (λ e, (e.1, e.2.2)) (sl_left m)) (sl_next m) ∧ sl_next m = 1 + peak ls.
  Proof using All.
    intros Hu Htr m. assert (HashLaws N.eqb (λ _, 0)) as HL.
    { split; [apply N.eqb_refl|apply N.eqb_sym| |done]. intros a b c. rewrite !N.eqb_eq. congruence. }
    assert (∀ X L B t, SI L B t X → distinct_keys N.eqb X.*2) as Hdist.
    { intros X L B t (E & HE & ->). destruct (asc_facts _ _ _ _ HE) as (Ha & _). clear -Ha.
      unfold ascending in Ha. unfold distinct_keys. induction Ha as [|x l Ha IH Hf]; constructor; [|done].
      eapply Forall_impl; [exact Hf|]. intros y Hy. simpl in Hy. apply N.eqb_neq. intros He. rewrite He, N.compare_refl in Hy. done. }
    destruct (slots_follow N.eqb _ HL (λ o, after o) (λ t x, (call (cb_step x) t).2) u128_op (λ o l, Forall u128_op o ∧ l = contents o) SI) with (o := o) (ls := ls)
      as (X & L & B & HS & HM & Hl & HB); [..|exact Hu| |].
    - intros o' x. by rewrite hist_snoc.
    - exact cb_SI_new.
    - intros L B s X x Hx HS. by apply cb_slot_step.
    - intros o' l L B X [Hu' ->] HS. pose proof (ghost_add_add (map pj L) B d) as GA.
      apply (SlotMap.SI_add _ _ _ d (@cb_leaves V) CI cb_Hconv) in HS as (E & HE & ->). destruct (cb_iter_fact nn ms d t0 H0 Hw Hnew o' Hu') as (_ & _ & Hit).
      assert (contents o' = E.*2.*2) as ->; [|done]. apply SlotMap.de_spec_inj. intros sc. specialize (Hit sc).
      rewrite (iter_facts _ _ _ _ sc HE) in Hit. by injection Hit as ->.
    - intros L B s X HS. by eapply Hdist.
    - intros L B s X HS. by eapply (SlotMap.SI_count _ 4 cap d (@cb_leaves V) CI cb_Hch).
    - destruct Htr as [Hlen Htr]. split; [done|]. intros n l Hn. split; [by apply Forall_take|by apply Htr].
    - fold m in HM. pose proof (Hdist _ _ _ _ HS) as Hd.
      destruct HM as (HMa & HMl & HMn). assert (MM m X L B) as HM by by split_and!.
      split_and!.
      + intros kv Hin. rewrite Hl in Hin. apply elem_of_list_fmap in Hin as ([j [k v]] & -> & Hin). cbn [fst snd].
        rewrite (slot_of_in _ _ HL m X L B j (k, v) k HM Hd Hin (N.eqb_refl _)).
        pose proof (ghost_add_add (map pj L) B d) as GA.
        apply (SlotMap.SI_add _ _ _ d (@cb_leaves V) CI cb_Hconv) in HS as (E & HE & HXE). rewrite HXE in Hin. apply elem_of_list_fmap in Hin as ([i x] & Hx & Hin). cbn [fst snd] in *. subst x.
        destruct HE as [[_ ->]|(U & HR & HwU & ->)]; [by apply elem_of_nil in Hin|].
        pose proof (cr_nodes _ _ _ _ HR) as (fr & Ho & _). pose proof (cr_leaves _ _ _ _ HR) as Hlv.
        pose proof (addr_mem _ _ _ _ _ _ _ _ HR HwU Hin) as Had.
        destruct (ent_plug _ _ _ _ _ Hin) as [ctx He]. rewrite <- He in Ho, Hlv. split.
        * unfold cb_value_slot, mbind, res_bind. rewrite Had. by rewrite (rd_leaf_index _ _ _ _ Ho _ _ _ _ _ _ (CL_cell _ _ _ _ _)).
        * unfold cb_get_leaf. by rewrite (CH_get _ _ _ _ _ _ Hlv (lcell_in _ _ _ _ _)).
      + rewrite HMl, HMn. by eapply (SlotMap.SI_unused _ 4 cap d (@cb_leaves V) CI cb_Hch).
      + by rewrite HMn.
  Qed.
End cb.
