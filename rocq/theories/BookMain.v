(** * Whole histories: the AVL tree is the textbook's, node for node *)
From Verif Require Import IterProof AVLMain FuzzProof UnitProof DrawSpec DrawPure DrawAv DrawMain BookSpec BookRot BookOps BookSorted.

Lemma relabelled_same {A} (U U' : tree A) : same_shape U U' → ∀ rest, relabelled (draw U) ((entries U').*2 ++ rest) = draw U'.
Proof.
  induction 1 as [|m l a kv kv' r l' r' Hl IHl Hr IHr]; intros rest; [done|]. cbn [draw relabelled entries].
  assert (length (inorder (draw l)) = length (entries l').*2) as El.
  { rewrite draw_inorder, !fmap_length. clear - Hl. induction Hl; [done|]. cbn [entries]. rewrite !app_length. cbn [length]. lia. }
  rewrite fmap_app, fmap_cons, <- !app_assoc. cbn [snd app]. rewrite IHl. f_equal.
  - by rewrite El, list_lookup_middle.
  - rewrite El. rewrite cons_middle, app_assoc. rewrite drop_app_alt by (rewrite app_length; cbn [length]; lia). apply IHr.
Qed.

Section main.
  Context `{Profile} {K V : Type} (pcmp : K → K → option comparison) (HO : OrdLaws (av_cmp pcmp)).
  Context (ms : nat) (d : K * V) (H0 : (0 < ms)%nat) (Hw : N.of_nat ms + 1 < W32).
  Notation cmp := (av_cmp pcmp).
  Notation after := (av_after pcmp ms d).
  Notation cap := (N.of_nat ms).
  Notation avok := (avok (G := ghost_any) pcmp cap).

  Lemma avok_draw (t : avlt K V) U U' : avok t U → avok t U' → draw U = draw U'.
  Proof using H. clear HO H0 Hw. intros H1 H2. apply (avok_drawn pcmp ms _ _ _ H2). by apply (avok_drawn pcmp ms _ _ _ H1). Qed.

  Lemma values_step (t : avlt K V) U U' op : avok t U → avok (call (av_step pcmp op) t).2 U' → same_shape U U' →
    draw U' = relabelled (draw U) (om_spec cmp cap op (inorder (draw U))).2.
  Proof using H HO H0.
    clear Hw. intros Hok Hok' Hss.
    destruct (om_step_ok (av_api pcmp) cmp cap (AVI pcmp cap) ltac:(by apply Hom) op t (entries U)) as (_ & E' & (U2 & Hok2 & <-) & HE & _); [by exists U|].
    rewrite draw_inorder, <- HE.
    assert ((entries U2).*2 = (entries U').*2) as ->. { rewrite <- !draw_inorder. f_equal. by eapply avok_draw. }
    symmetry. rewrite <- (app_nil_r (entries U').*2). by apply relabelled_same.
  Qed.
  Lemma reads_step (t : avlt K V) U op : avok t U → (call (av_step pcmp op) t).2 = t → (om_spec cmp cap op (inorder (draw U))).2 = inorder (draw U) ∨ True →
    ∃ U', avok (call (av_step pcmp op) t).2 U' ∧ draw U' = relabelled (draw U) (om_spec cmp cap op (inorder (draw U))).2.
  Proof using H HO H0.
    intros Hok E _. exists U. rewrite E. split; [done|]. eapply values_step; [exact Hok|by rewrite E|apply same_shape_refl].
  Qed.

  Lemma book_one (t : avlt K V) U op : avok t U → ∃ U', avok (call (av_step pcmp op) t).2 U' ∧ draw U' = book_step cmp cap op (draw U).
  Proof using H HO H0.
    clear Hw. intros Hok.
    assert (∀ o, (call (av_step pcmp o) t).2 = t → ∃ U', avok (call (av_step pcmp o) t).2 U' ∧ draw U' = relabelled (draw U) (om_spec cmp cap o (inorder (draw U))).2) as Hrd.
    { intros o E. eapply reads_step; [done|done|by right]. }
    assert (∀ (A : Type) (f : avlt K V → res A) (g : A → M (avlt K V) (om_out K V)), (∀ a, ∃ r, g a t = Ret r t) → (call (gets f ≫= g) t).2 = t) as Hg.
    { intros A f g Hg. unfold call, mbind, M_bind, gets. destruct (f t) as [a|e]; [|done]. by destruct (Hg a) as [r ->]. }
    assert (∀ k f, ∃ U', avok (call (av_step pcmp (MGetMut k f)) t).2 U' ∧ same_shape U U' ∧ (call (av_step pcmp (MIndexMut k f)) t).2 = (call (av_step pcmp (MGetMut k f)) t).2) as Hgm.
    { intros k f. assert (wp (av_get_mut pcmp k f) t (λ o t', ∃ U', avok t' U' ∧ same_shape U U')) as Hwp.
      { eapply wp_get_mut'; [exact HO|exact _|exact Hok|]. intros o t' U' Hok' _ _ Hss. by exists U'. }
      apply wp_elim in Hwp as (o & t' & E & U' & Hok' & Hss). exists U'. unfold av_step, om_step, call, mbind, M_bind. cbn [av_api a_get_mut a_index_mut].
      rewrite E. cbn [snd mret M_ret]. split_and!; [done|done|]. unfold av_index_mut, mbind, M_bind. rewrite E. by destruct o. }
    destruct op as [k v|k|k|k f|k| | | | | |k|k f|sc|sc]; cbn [book_step]; try (by apply Hrd; apply Hg; intros a; eexists); try (by apply Hrd).
    - assert (wp (av_insert pcmp k v) t (λ o t', ∃ U', avok t' U' ∧ draw U' = book_step cmp cap (MInsert k v) (draw U))) as Hwp.
      { eapply wp_insert_exact; [exact HO|exact _|exact Hok|lia|]. intros o t' U' Hok' Hins Hn Hs. cbn [book_step]. rewrite draw_inorder.
        inversion Hins as [A B i kv HE Hk HA HB|A B i HE Hl HA HB _ _ _|A B HE Hl HA HB]; subst.
        - exists U'. split; [done|]. rewrite Hs by done. rewrite HE, fmap_app, fmap_cons. cbn [snd].
          by rewrite (om_find_found cmp k A.*2 kv B.*2 HA Hk).
        - exists U'. split; [done|]. rewrite Hs by done. assert (om_find cmp k (entries U).*2 = None) as ->; [rewrite HE, fmap_app; by apply om_find_absent|].
          rewrite decide_True; [done|]. unfold lengthN in *. by rewrite fmap_length.
        - exists U. rewrite Hn by done. split; [done|]. assert (om_find cmp k (entries U).*2 = None) as ->; [rewrite HE, fmap_app; by apply om_find_absent|].
          rewrite decide_False; [done|]. unfold lengthN in *. rewrite fmap_length. lia. }
      apply wp_elim in Hwp as (o & t' & E & U' & Hok' & Hd). exists U'. cbn [book_step] in Hd. split; [|done].
      unfold av_step, om_step, call, mbind, M_bind. cbn [av_api a_insert]. by rewrite E.
    - assert (wp (av_remove pcmp k) t (λ o t', ∃ U', avok t' U' ∧ draw U' = book_remove cmp k (draw U))) as Hwp.
      { eapply wp_remove_exact; [exact HO|exact _|exact Hok|]. intros o t' U' Hok' _ _ Hd. by exists U'. }
      apply wp_elim in Hwp as (o & t' & E & U' & Hok' & Hd). exists U'. split; [|done].
      unfold av_step, om_step, call, mbind, M_bind. cbn [av_api a_remove]. by rewrite E.
    - destruct (Hgm k f) as (U' & Hok' & Hss & _). exists U'. split; [done|]. by eapply values_step.
    - destruct (Hgm k f) as (U' & Hok' & Hss & E). rewrite <- E in Hok'. exists U'. split; [done|]. by eapply values_step.
    - assert (wp (av_iterate_mut sc) t (λ o t', ∃ U', avok t' U' ∧ same_shape U U')) as Hwp.
      { eapply av_iterate_mut_ok; [exact _|exact Hok|]. intros t' U' Hok' Hss _. by exists U'. }
      apply wp_elim in Hwp as (o & t' & E & U' & Hok' & Hss).
      assert ((call (av_step pcmp (MIterMut sc)) t).2 = t') as Et.
      { unfold av_step, om_step, call, mbind, M_bind. cbn [av_api a_iter_mut]. by rewrite E. }
      rewrite <- Et in Hok'. exists U'. split; [done|]. by eapply values_step.
  Qed.
  Lemma book_history ops : ∀ (t : avlt K V) U, avok t U →
    ∃ U', avok (history (av_step pcmp) ops t).2 U' ∧ draw U' = fold_left (λ b o, book_step cmp cap o b) ops (draw U).
  Proof using H HO H0.
    clear Hw. induction ops as [|op ops IH]; intros t U Hok; [by exists U|]. cbn [history fold_left].
    destruct (book_one t U op Hok) as (U1 & Hok1 & Hd1). destruct (call (av_step pcmp op) t) as [r t1]. cbn [snd] in Hok1.
    destruct (IH t1 U1 Hok1) as (U2 & Hok2 & Hd2). exists U2. destruct (history (av_step pcmp) ops t1) as [rs t2]. cbn [snd] in *. by rewrite Hd2, Hd1.
  Qed.
  Lemma book_fact (o : list (om_op K V)) : av_drawn (after o) (book_tree cmp cap o).
  Proof using H HO H0 Hw.
    destruct (book_history o (av_new ms d) Lf) as (U & Hok & Hd); [by apply avok_new|].
    apply (avok_drawn pcmp ms _ _ _ Hok). by rewrite Hd.
  Qed.
  Lemma book_contents (o : list (om_op K V)) : inorder (book_tree cmp cap o) = om_contents pcmp ms o ∧ balanced (book_tree cmp cap o).
  Proof using H HO H0 Hw d.
    destruct (drawn_fact pcmp HO ms d H0 Hw o) as (b & _ & Hi & Hb & _ & Hu). by rewrite (Hu _ (book_fact o)).
  Qed.
  Lemma book_iff (o : list (om_op K V)) b : av_drawn (after o) b ↔ b = book_tree cmp cap o.
  Proof using H HO H0 Hw.
    destruct (book_history o (av_new ms d) Lf) as (U & Hok & Hd); [by apply avok_new|].
    rewrite (avok_drawn pcmp ms _ _ _ Hok). by rewrite Hd.
  Qed.
  Lemma book_insert_fact (o : list (om_op K V)) k v b : av_drawn (after o) b → lengthN (inorder b) < cap ∨ (∃ x, x ∈ inorder b ∧ cmp k x.1 = Eq) →
    ∃ i t', av_insert pcmp k v (after o) = Ret (Some i) t' ∧ av_drawn t' (book_insert cmp k v b).
  Proof using H HO H0 Hw.
    intros Hb Hroom. destruct (av_reach pcmp HO ms d H0 Hw o) as (U & Hok & _ & _). apply (avok_drawn pcmp ms _ _ _ Hok) in Hb as ->.
    assert (wp (av_insert pcmp k v) (after o) (λ r t', ∃ i, r = Some i ∧ av_drawn t' (book_insert cmp k v (draw U)))) as Hwp.
    { eapply wp_insert_exact; [exact HO|exact _|exact Hok|lia|]. intros r t' U' Hok' Hins Hn Hs. inversion Hins as [A B i kv HE Hk HA HB|A B i HE Hl HA HB _ _ _|A B HE Hl HA HB]; subst.
      1, 2: exists i; split; [done|]; apply (avok_drawn pcmp ms _ _ _ Hok'); rewrite Hs by done; done.
      exfalso. rewrite draw_inorder in Hroom. destruct Hroom as [Hr|(x & Hx & Ex)].
      - unfold lengthN in *. rewrite fmap_length in Hr. lia.
      - rewrite HE, fmap_app in Hx. unfold below, above in *. rewrite Forall_forall in HA, HB.
        apply elem_of_app in Hx as [Hx|Hx]; [specialize (HA _ Hx)|specialize (HB _ Hx)]; congruence. }
    apply wp_elim in Hwp as (r & t' & E & i & -> & Hd). by exists i, t'.
  Qed.
  Lemma book_remove_fact (o : list (om_op K V)) k b : av_drawn (after o) b →
    ∃ r t', av_remove pcmp k (after o) = Ret r t' ∧ av_drawn t' (book_remove cmp k b) ∧ (r = None ↔ om_find cmp k (inorder b) = None).
  Proof using H HO H0 Hw.
    intros Hb. destruct (av_reach pcmp HO ms d H0 Hw o) as (U & Hok & _ & _). apply (avok_drawn pcmp ms _ _ _ Hok) in Hb as ->.
    assert (wp (av_remove pcmp k) (after o) (λ r t', av_drawn t' (book_remove cmp k (draw U)) ∧ (r = None ↔ om_find cmp k (inorder (draw U)) = None))) as Hwp.
    { eapply wp_remove_exact; [exact HO|exact _|exact Hok|]. intros r t' U' Hok' Hrem _ Hd. split; [by apply (avok_drawn pcmp ms _ _ _ Hok')|].
      rewrite draw_inorder. inversion Hrem as [A B i kv HE Hk HA HB|A B HE HA HB]; subst.
      - rewrite HE, fmap_app, fmap_cons. cbn [snd]. by rewrite (om_find_found cmp k A.*2 kv B.*2 HA Hk).
      - rewrite HE, fmap_app. by rewrite (om_find_absent cmp k A.*2 B.*2 HA HB). }
    apply wp_elim in Hwp as (r & t' & E & Hd). by exists r, t'.
  Qed.
  Lemma sorted_fact (ps : list (K * V)) b : ascending cmp ps ∨ ascending cmp (reverse ps) → lengthN ps ≤ cap →
    av_drawn (after (map (λ p : K * V, MInsert p.1 p.2) ps)) b →
    2 ^ N.of_nat (tall b) ≤ 2 * lengthN ps + 1 ∧ ∀ b' : drawing (K * V), length (inorder b') = length ps → (tall b ≤ tall b')%nat.
  Proof using H HO H0 Hw.
    intros Ha Hc Hb. apply book_iff in Hb as ->. pose proof (sorted_tree cmp cap ps HO Ha Hc) as Hle. cbn zeta in Hle. split; [exact Hle|].
    intros b' Hb'. pose proof (tall_pow b') as Hp. unfold lengthN in *. rewrite Hb' in Hp.
    assert (2 ^ N.of_nat (tall (book_tree cmp cap (map (λ p : K * V, MInsert p.1 p.2) ps))) < 2 ^ N.of_nat (S (tall b'))) as Hlt.
    { rewrite Nat2N.inj_succ, N.pow_succ_r'. lia. }
    apply N.pow_lt_mono_r_iff in Hlt; lia.
  Qed.
End main.
Lemma same_tree {K V} (P1 P2 : Profile) (pcmp : K → K → option comparison) (ms1 ms2 : nat) (d1 d2 : K * V) (o : list (om_op K V)) (b : drawing (K * V)) :
  OrdLaws (po_cmp pcmp) → (0 < ms1)%nat → (0 < ms2)%nat → N.of_nat ms1 + 1 < W32 → N.of_nat ms2 + 1 < W32 →
  (length (filter is_insert o) ≤ ms1 `min` ms2)%nat →
  @av_drawn P1 K V (@av_after P1 K V pcmp ms1 d1 o) b ↔ @av_drawn P2 K V (@av_after P2 K V pcmp ms2 d2 o) b.
Proof.
  intros HO H1 H2 Hw1 Hw2 Hl. etransitivity; [exact (@book_iff P1 K V pcmp HO ms1 d1 H1 Hw1 o b)|].
  symmetry. etransitivity; [exact (@book_iff P2 K V pcmp HO ms2 d2 H2 Hw2 o b)|]. symmetry.
  unfold book_tree. rewrite (room_history (av_cmp pcmp) (N.of_nat ms1) (N.of_nat ms2)); [done|..]; cbn [inorder]; unfold lengthN; cbn [length]; lia.
Qed.
