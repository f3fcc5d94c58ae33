(** * The drawings of reachable AVL trees *)
From Verif Require Import IterProof AVLMain FuzzProof UnitProof DrawSpec DrawPure DrawAv.

Section main.
  Context `{Profile} {K V : Type} (pcmp : K → K → option comparison) (HO : OrdLaws (av_cmp pcmp)).
  Context (ms : nat) (d : K * V) (H0 : (0 < ms)%nat) (Hw : N.of_nat ms + 1 < W32).
  Notation cmp := (av_cmp pcmp).
  Notation after := (av_after pcmp ms d).
  Notation cap := (N.of_nat ms).
  Notation avok := (avok (G := ghost_any) pcmp cap).
  Notation drawing := (drawing (K * V)).

  Lemma avok_drawn (t : avlt K V) U b : avok t U → av_drawn t b ↔ b = draw U.
  Proof using Type.
    clear HO H0 Hw. intros [HR _ _].
    assert (av_drawn t (draw U)) as Hd. { unfold av_drawn. rewrite (rep_root _ _ _ HR). by apply (rep_reads cap t []). }
    split; [|by intros ->]. intros Hb. by eapply reads_fun.
  Qed.
  Lemma drawn_fact o : ∃ b, av_drawn (after o) b ∧ inorder b = om_contents pcmp ms o ∧ balanced b ∧ lengthN (inorder b) = av_len (after o) ∧
    ∀ b', av_drawn (after o) b' → b' = b.
  Proof using HO H0 Hw.
    destruct (av_reach pcmp HO ms d H0 Hw o) as (U & Hok & HE & _). exists (draw U). split_and!.
    - by apply (avok_drawn _ _ _ Hok).
    - by rewrite draw_inorder.
    - apply draw_balanced. by destruct Hok.
    - rewrite draw_inorder. destruct Hok as [HR _ _]. rewrite (rep_len _ _ _ HR). unfold lengthN. by rewrite fmap_length.
    - intros b' Hb. by apply (avok_drawn _ _ _ Hok).
  Qed.

  Lemma hang_step (t : avlt K V) U k v : avok t U → balanced (hang cmp k v (draw U)) →
    lengthN (inorder (draw U)) < cap ∨ (∃ x, x ∈ inorder (draw U) ∧ cmp k x.1 = Eq) →
    ∃ i t' U', av_insert pcmp k v t = Ret (Some i) t' ∧ avok t' U' ∧ draw U' = hang cmp k v (draw U).
  Proof using HO H0.
    clear Hw. intros Hok Hb Hroom. rewrite draw_inorder in Hroom.
    assert (wp (av_insert pcmp k v) t (λ o t', ∃ i U', o = Some i ∧ avok t' U' ∧ draw U' = hang cmp k v (draw U))) as Hwp.
    { eapply wp_insert_quiet; [exact HO|exact _|exact Hok|lia|exact Hb|]. intros o t' U' Hok' Hins _ Hd.
      destruct o as [i|]; [exists i, U'; split_and!; [done|done|by apply Hd]|]. exfalso.
      inversion Hins as [| |A B HE Hlen HA HB]; subst. destruct Hroom as [Hr|(x & Hx & Hk)].
      - unfold lengthN in *. rewrite fmap_length in Hr. lia.
      - rewrite HE, fmap_app in Hx. unfold below, above in *. rewrite Forall_forall in HA, HB.
        apply elem_of_app in Hx as [Hx|Hx]; [specialize (HA _ Hx)|specialize (HB _ Hx)]; congruence. }
    apply wp_elim in Hwp as (o & t' & E & i & U' & -> & Hok' & Hd). by exists i, t', U'.
  Qed.
  Lemma hang_fact o k v b : av_drawn (after o) b → balanced (hang cmp k v b) →
    lengthN (inorder b) < cap ∨ (∃ x, x ∈ inorder b ∧ cmp k x.1 = Eq) →
    ∃ i t', av_insert pcmp k v (after o) = Ret (Some i) t' ∧ av_drawn t' (hang cmp k v b).
  Proof using HO H0 Hw.
    intros Hb Hbal Hroom. destruct (av_reach pcmp HO ms d H0 Hw o) as (U & Hok & _ & _).
    apply (avok_drawn _ _ _ Hok) in Hb as ->. destruct (hang_step _ _ k v Hok Hbal Hroom) as (i & t' & U' & E & Hok' & Hd).
    exists i, t'. split; [done|]. by apply (avok_drawn _ _ _ Hok').
  Qed.

  Notation inserts := (fmap (λ p : K * V, MInsert p.1 p.2)).
  Lemma after_insert o k v : after (o ++ [MInsert k v]) = match av_insert pcmp k v (after o) with Ret _ t => t | Fail _ t => t end.
  Proof using Type.
    clear HO H0 Hw. unfold av_after. rewrite <- history_app_2. generalize ((history (av_step pcmp) o (av_new ms d)).2). intros t.
    cbn [history]. unfold call, av_step, om_step, av_api. cbn [a_insert]. unfold mbind, M_bind. by destruct (av_insert pcmp k v t).
  Qed.
  Lemma built o0 n : avok (after o0) Lf → ∀ b : drawing, length (inorder b) = n → balanced b → ascending cmp (inorder b) → lengthN (inorder b) ≤ cap →
    ∃ ps U, ps ≡ₚ inorder b ∧ avok (after (o0 ++ inserts ps)) U ∧ draw U = b.
  Proof using HO H0.
    clear Hw. intros Hok0. induction n as [|n IH]; intros b Hn Hb Hs Hc.
    - exists [], Lf. destruct b as [|l x r]; [|cbn [inorder] in Hn; rewrite app_length in Hn; cbn [length] in Hn; lia].
      rewrite app_nil_r. done.
    - assert (b ≠ Empty) as Hne by (by intros ->).
      destruct (take_leaf cmp HO b Hb Hne Hs) as (b' & k & v & A & B & Hb' & Hh & Hi & Hi' & _).
      rewrite Hi in Hn, Hs, Hc. unfold lengthN in Hc. rewrite app_length in Hn, Hc. cbn [length] in Hn, Hc.
      destruct (IH b') as (ps & U & Hps & Hok & Hd); rewrite ?Hi'.
      { rewrite app_length. lia. }
      { done. }
      { by eapply ascending_delete. }
      { unfold lengthN. rewrite app_length. lia. }
      destruct (hang_step _ _ k v Hok) as (i & t' & U' & E & Hok' & Hd').
      { by rewrite Hd, Hh. }
      { left. rewrite Hd, Hi'. unfold lengthN. rewrite app_length. lia. }
      exists (ps ++ [(k, v)]), U'. split_and!.
      + rewrite Hps, Hi', Hi. rewrite <- Permutation_cons_append. apply Permutation_middle.
      + rewrite fmap_app, app_assoc. cbn [fmap list_fmap]. rewrite after_insert. cbn [fst snd]. by rewrite E.
      + by rewrite Hd', Hd.
  Qed.
  Lemma built_fact b : balanced b → ascending cmp (inorder b) → lengthN (inorder b) ≤ cap →
    ∃ ps, ps ≡ₚ inorder b ∧ av_drawn (after (inserts ps)) b.
  Proof using HO H0 Hw.
    intros Hb Hs Hc. destruct (built [] _ ltac:(by apply avok_new) b eq_refl Hb Hs Hc) as (ps & U & Hps & Hok & Hd). exists ps. split; [done|].
    by apply (avok_drawn _ _ _ Hok).
  Qed.
  Lemma reachable_fact b : (∃ o, av_drawn (after o) b) ↔ balanced b ∧ ascending cmp (inorder b) ∧ lengthN (inorder b) ≤ cap.
  Proof using HO H0 Hw.
    split.
    - intros (o & Hb). destruct (av_reach pcmp HO ms d H0 Hw o) as (U & Hok & _ & _). apply (avok_drawn _ _ _ Hok) in Hb as ->.
      destruct Hok as [HR Ha Hs]. split_and!; [by apply draw_balanced|by rewrite draw_inorder|].
      rewrite draw_inorder. pose proof (rep_len_le _ _ _ HR). unfold lengthN in *. by rewrite fmap_length.
    - intros (Hb & Hs & Hc). destruct (built_fact b Hb Hs Hc) as (ps & _ & Hd). by eexists.
  Qed.
  Lemma emptied (l : list (K * V)) : ∀ o, om_contents pcmp ms o = l → ∃ o', om_contents (V:=V) pcmp ms (o ++ o') = [].
  Proof using HO.
    clear H0 Hw. induction l as [|x l IH]; intros o Ho; [exists []; by rewrite app_nil_r|].
    destruct (IH (o ++ [MRemove x.1])) as (o' & Ho').
    { unfold om_contents in *. rewrite spec_history_snoc'. cbn [om_spec snd]. rewrite Ho. cbn [om_remove]. by rewrite (cmp_refl _ HO). }
    exists (MRemove x.1 :: o'). by rewrite <- app_assoc in Ho'.
  Qed.
  Lemma everywhere_fact o b : balanced b → ascending cmp (inorder b) → lengthN (inorder b) ≤ cap → ∃ o', av_drawn (after (o ++ o')) b.
  Proof using HO H0 Hw.
    intros Hb Hs Hc. destruct (emptied _ o eq_refl) as (o1 & Ho1).
    destruct (av_reach pcmp HO ms d H0 Hw (o ++ o1)) as (U & Hok & HE & _). rewrite Ho1 in HE.
    destruct U as [|m l a kv r]; [|cbn [entries] in HE; rewrite fmap_app in HE; by destruct ((entries l).*2)].
    destruct (built (o ++ o1) _ Hok b eq_refl Hb Hs Hc) as (ps & U & _ & Hok' & Hd). exists (o1 ++ inserts ps). rewrite app_assoc.
    by apply (avok_drawn _ _ _ Hok').
  Qed.
  Lemma heights_fact ps h : ascending cmp ps → lengthN ps ≤ cap →
    (∃ o b, av_drawn (after o) b ∧ inorder b = ps ∧ tall b = h) ↔ fib (h + 2) ≤ lengthN ps + 1 ∧ lengthN ps + 1 ≤ 2 ^ N.of_nat h.
  Proof using HO H0 Hw.
    intros Hs Hc. split.
    - intros (o & b & Hb & <- & <-). split; [|apply tall_pow]. apply balanced_fib. apply (reachable_fact b). by eexists.
    - intros [H1 H2]. destruct (heights_exist h ps H1 H2) as (b & Hb & <- & Ht).
      destruct (proj2 (reachable_fact b)) as (o & Ho); [done|]. by exists o, b.
  Qed.
End main.

Lemma reads_path `{Profile} {K V} (t : avlt K V) i b : av_reads t i b → ∃ p, av_path t i p ∧ length p = tall b.
Proof.
  induction 1 as [|i l r x y kv Hi Hl Hr Hn Hx (p & Hp & Lp) Hy (q & Hq & Lq)]; [exists []; split; [constructor|done]|].
  cbn [tall]. destruct (Nat.max_spec (tall x) (tall y)) as [[? ->]|[? ->]].
  - exists (i :: q). split; [by eapply av_path_right|by rewrite <- Lq].
  - exists (i :: p). split; [by eapply av_path_left|by rewrite <- Lp].
Qed.
Lemma longest_fact `{Profile} {K V} (pcmp : K → K → option comparison) (HO : OrdLaws (po_cmp pcmp)) (ms : nat) (d : K * V) h (ps : list (K * V)) :
  (0 < ms)%nat → N.of_nat ms + 1 < W32 → ascending (po_cmp pcmp) ps → lengthN ps ≤ N.of_nat ms → fib (h + 2) = lengthN ps + 1 →
  ∃ o p, let t := av_after pcmp ms d o in
    av_path t (as_u32 (av_root t)) p ∧ length p = h ∧ fib (length p + 2) = av_len t + 1.
Proof.
  intros H0 Hw Hs Hc Hf. destruct (proj2 (heights_fact pcmp HO ms d H0 Hw ps h Hs Hc)) as (o & b & Hb & Hi & Ht).
  { split; [by rewrite Hf|]. rewrite <- Hf. destruct h as [|h]; [done|]. destruct (fib_pow (S h) ltac:(lia)) as [Hp _].
    replace (S h - 1)%nat with h in Hp by lia. rewrite Nat2N.inj_succ, N.pow_succ_r'.
    assert (1 ≤ 2 ^ N.of_nat h) by (apply (N.pow_le_mono_r 2 0); lia). lia. }
  destruct (reads_path _ _ _ Hb) as (p & Hp & Lp). exists o, p. cbv zeta. split; [exact Hp|]. split; [lia|].
  destruct (drawn_fact pcmp HO ms d H0 Hw o) as (b' & _ & _ & _ & Hl & Hu). rewrite <- Hl, <- (Hu b Hb), Hi, <- Hf. f_equal. lia.
Qed.
Definition counted (n : nat) : list (N * N) := map (λ i, (N.of_nat i, 0)) (seq 0 n).
Lemma counted_asc cmp n a : (∀ x y : N, x < y → cmp x y = Lt) → ascending cmp (map (λ i, (N.of_nat i, 0)) (seq a n)).
Proof.
  intros Hc. revert a. induction n as [|n IH]; intros a; [constructor|]. cbn [seq map]. constructor; [apply IH|].
  apply Forall_forall. intros x Hx. apply elem_of_list_In, in_map_iff in Hx as (i & <- & Hi). apply in_seq in Hi.
  cbn [fst]. apply Hc. lia.
Qed.
Lemma counted_len n : lengthN (counted n) = N.of_nat n.
Proof. unfold counted, lengthN. by rewrite map_length, seq_length. Qed.
