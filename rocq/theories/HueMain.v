(** * Whole histories: the red-black tree is the one on paper, node for node and colour for colour *)
From Verif Require Import IterProof RBMain HueOps.

(** ** The pairs from left to right, with every repair *)
Section order.
  Context {A : Type}.
  Implicit Types b : painted A.
  Notation ord b := (inorder (unpainted b)).
  Local Ltac fin := cbn [unpainted inorder fst blackened]; rewrite <- ?app_assoc; cbn [app]; rewrite <- ?app_assoc; done.
  Lemma ord_blackened b : ord (blackened b) = ord b.
  Proof. by destruct b. Qed.
  Lemma ord_mended_left (l : painted A) x r : ord (mended_left l x r) = ord l ++ x :: ord r.
  Proof. destruct l as [|[] [|[] ? ? ?] ? [|[] ? ? ?]]; cbn [mended_left]; try destruct (is_red r); destruct r; fin. Qed.
  Lemma ord_mended_right (l : painted A) x r : ord (mended_right l x r) = ord l ++ x :: ord r.
  Proof. destruct r as [|[] [|[] ? ? ?] ? [|[] ? ? ?]]; cbn [mended_right]; try destruct (is_red l); destruct l; fin. Qed.
  Lemma ord_short_left_black m (l : painted A) x r : ord (short_left_black m l x r).1 = ord l ++ x :: ord r.
  Proof. destruct r as [|[] [|[] ? ? ?] ? [|[] ? ? ?]]; cbn [short_left_black]; fin. Qed.
  Lemma ord_short_right_black m (l : painted A) x r : ord (short_right_black m l x r).1 = ord l ++ x :: ord r.
  Proof. destruct l as [|[] [|[] ? ? ?] ? [|[] ? ? ?]]; cbn [short_right_black]; fin. Qed.
  Lemma ord_left_done m (l : painted A * bool) x (r : painted A) : ord (left_done m l x r).1 = ord l.1 ++ x :: ord r.
  Proof.
    unfold left_done. destruct l.2; [|done]. destruct r as [|[] a y c]; cbn [short_left]; try apply ord_short_left_black.
    cbn [fst unpainted inorder]. rewrite ord_short_left_black. fin.
  Qed.
  Lemma ord_right_done m (l : painted A) x (r : painted A * bool) : ord (right_done m l x r).1 = ord l ++ x :: ord r.1.
  Proof.
    unfold right_done. destruct r.2; [|done]. destruct l as [|[] a y c]; cbn [short_right]; try apply ord_short_right_black.
    cbn [fst unpainted inorder]. rewrite ord_short_right_black. fin.
  Qed.
  Lemma ord_without_last (r : painted A) : ∀ m l x, let q := without_last m l x r in ord q.2.1 ++ [q.1] = ord l ++ x :: ord r.
  Proof.
    induction r as [|m' a IHa y b IHb]; intros m l x; cbn [without_last]; [fin|]. specialize (IHb m' a y). cbn zeta in *.
    destruct (without_last m' a y b) as [z rest]. cbn [fst snd] in *. rewrite ord_right_done, <- app_assoc. cbn [app]. rewrite IHb. fin.
  Qed.
  Lemma ord_without_root m (l : painted A) r : ord (without_root m l r).1 = ord l ++ ord r.
  Proof.
    destruct l as [|m' a y b]; [done|]. cbn [without_root]. destruct r as [|n c w e]; [by rewrite app_nil_r|].
    pose proof (ord_without_last b m' a y) as E. cbn zeta in E. destruct (without_last m' a y b) as [z rest]. cbn [fst snd] in E.
    rewrite ord_left_done. change (ord (Knot m' a y b)) with (ord a ++ y :: ord b). rewrite <- E, <- app_assoc. done.
  Qed.
  Lemma ord_restocked b : ∀ l, length (ord (restocked b l)) = length (ord b).
  Proof. induction b as [|m x IHx z y IHy]; intros l; [done|]. cbn [restocked unpainted inorder]. rewrite !app_length. cbn [length]. by rewrite IHx, IHy. Qed.
End order.
Section room.
  Context {K V : Type} (cmp : K → K → comparison).
  Notation ord b := (inorder (unpainted b)).
  Implicit Types b : painted (K * V).
  Lemma hinsert_len k v b : (length (ord (hinsert cmp k v b)) ≤ S (length (ord b)))%nat.
  Proof.
    unfold hinsert. rewrite ord_blackened. induction b as [|m l IHl x r IHr]; cbn [hins]; [done|].
    destruct (cmp k x.1), m; rewrite ?ord_mended_left, ?ord_mended_right; cbn [unpainted inorder]; rewrite !app_length; cbn [length]; lia.
  Qed.
  Lemma hremove_len k b : (length (ord (hremove cmp k b)) ≤ length (ord b))%nat.
  Proof.
    unfold hremove. rewrite ord_blackened. induction b as [|m l IHl x r IHr]; cbn [hrem]; [done|].
    destruct (cmp k x.1); rewrite ?ord_left_done, ?ord_right_done, ?ord_without_root; cbn [unpainted inorder]; rewrite !app_length; cbn [length]; lia.
  Qed.
  Lemma hstep_len cap o b : lengthN (ord (hstep cmp cap o b)) ≤ lengthN (ord b) + (if inserts o then 1 else 0).
  Proof.
    unfold lengthN. assert (∀ l, N.of_nat (length (ord (restocked b l))) ≤ N.of_nat (length (ord b)) + 0) as Hr; [intros l; rewrite ord_restocked; lia|].
    destruct o as [[k v|k|k|k f|k| | | | | |k|k f|sc|sc]|]; cbn [hstep inserts]; try apply Hr.
    - pose proof (hinsert_len k v b). destruct (om_find cmp k (ord b)); [lia|]. case_decide; lia.
    - pose proof (hremove_len k b). lia.
    - destruct b as [|m l x r]; [done|]. rewrite ord_blackened, ord_without_root. cbn [unpainted inorder]. rewrite !app_length. cbn [length]. lia.
  Qed.
  Lemma hroom_history cap1 cap2 ops : ∀ b, lengthN (ord b) + lengthN (filter inserts ops) ≤ cap1 → lengthN (ord b) + lengthN (filter inserts ops) ≤ cap2 →
    fold_left (λ b o, hstep cmp cap1 o b) ops b = fold_left (λ b o, hstep cmp cap2 o b) ops b.
  Proof.
    induction ops as [|o ops IH]; intros b H1 H2; [done|]. cbn [fold_left]. pose proof (hstep_len cap2 o b) as Hl.
    assert (lengthN (filter inserts (o :: ops)) = (if inserts o then 1 else 0) + lengthN (filter inserts ops)) as Ef.
    { unfold lengthN. destruct (inserts o) eqn:E; [rewrite filter_cons_True by (by rewrite E)|rewrite filter_cons_False by (rewrite E; by intros [])]; cbn [length]; lia. }
    rewrite Ef in H1, H2. assert (hstep cmp cap1 o b = hstep cmp cap2 o b) as ->.
    { destruct o as [[k v|k|k|k f|k| | | | | |k|k f|sc|sc]|]; cbn [hstep inserts] in *; try done. destruct (om_find cmp k (ord b)); [done|]. rewrite !decide_True by lia. done. }
    apply IH; lia.
  Qed.
End room.

Lemma restocked_same {A} (U U' : tree A) : same_shape U U' → ∀ rest, restocked (hdraw U) ((entries U').*2 ++ rest) = hdraw U'.
Proof.
  induction 1 as [|m l a kv kv' r l' r' Hl IHl Hr IHr]; intros rest; [done|]. cbn [hdraw restocked entries].
  assert (length (inorder (unpainted (hdraw l))) = length (entries l').*2) as El.
  { rewrite hdraw_inorder, !fmap_length. clear - Hl. induction Hl; [done|]. cbn [entries]. rewrite !app_length. cbn [length]. lia. }
  rewrite fmap_app, fmap_cons, <- !app_assoc. cbn [snd app]. rewrite IHl. f_equal.
  - by rewrite El, list_lookup_middle.
  - rewrite El. rewrite cons_middle, app_assoc. rewrite drop_app_alt by (rewrite app_length; cbn [length]; lia). apply IHr.
Qed.
Lemma hdraw_proper {K V} (s : tree (K * V)) n : rbi s n → proper n (hdraw s).
Proof.
  induction 1 as [|l i kv r n Hl IHl Hr IHr Hml Hmr|l i kv r n Hl IHl Hr IHr]; cbn [hdraw]; [done|change (1 =? 1) with true|change (0 =? 1) with false]; cbn [proper].
  - rewrite !hdraw_red, Hml, Hmr. by destruct n.
  - done.
Qed.

Section main.
  Context `{Profile} {K V : Type} (cmp : K → K → comparison) (HO : OrdLaws cmp).
  Context (ms : nat) (d : K * V) (H0 : (0 < ms)%nat) (Hw : N.of_nat ms + 1 < W32).
  Notation after := (rb_after cmp ms d).
  Notation holds := (rb_holds cmp ms d).
  Notation cap := (N.of_nat ms).
  Notation rbok := (rbok (G := ghost_any) cmp cap).
  Notation ops := (list (option (om_op K V))).

  Lemma rbok_drawn (t : rbt K V) U b : rbok t U → rb_drawn t b ↔ b = hdraw U.
  Proof using Type.
    clear HO H0 Hw. intros [HR [_ [n Hn]] _].
    assert (rb_drawn t (hdraw U)) as Hd. { unfold rb_drawn. rewrite (rep_root _ _ _ HR). by apply (rep_hreads cap t [] U n). }
    split; [|by intros ->]. intros Hb. by eapply hreads_fun.
  Qed.
  Lemma rbok_hdraw (t : rbt K V) U U' : rbok t U → rbok t U' → hdraw U = hdraw U'.
  Proof using H. clear HO H0 Hw. intros H1 H2. apply (rbok_drawn _ _ _ H2). by apply (rbok_drawn _ _ _ H1). Qed.

  Lemma hvalues_step (t : rbt K V) U U' op : rbok t U → rbok (call (rb_step cmp (Some op)) t).2 U' → same_shape U U' →
    hdraw U' = restocked (hdraw U) (om_spec cmp cap op (inorder (unpainted (hdraw U)))).2.
  Proof using H HO H0.
    clear Hw. intros Hok Hok' Hss.
    destruct (om_step_ok (rb_api cmp) cmp cap (RBI cmp cap) ltac:(by apply Hom) op t (entries U)) as (_ & E' & (U2 & Hok2 & <-) & HE & _); [by exists U|].
    rewrite hdraw_inorder, <- HE.
    assert ((entries U2).*2 = (entries U').*2) as ->. { rewrite <- !hdraw_inorder. do 2 f_equal. by eapply rbok_hdraw. }
    symmetry. rewrite <- (app_nil_r (entries U').*2). by apply restocked_same.
  Qed.

  Lemma hue_one (t : rbt K V) U op : rbok t U → ∃ U', rbok (call (rb_step cmp op) t).2 U' ∧ hdraw U' = hstep cmp cap op (hdraw U).
  Proof using H HO H0.
    clear Hw. intros Hok. destruct op as [op|].
    2:{ assert (wp rb_remove_root t (λ o t', ∃ U', rbok t' U' ∧ hdraw U' = hstep cmp cap None (hdraw U))) as Hwp.
        { eapply wp_remove_root_exact; [exact HO|exact _|exact Hok| |].
          - intros ->. by exists Lf.
          - intros m l i kv r t' U' -> Hok' _ _ Hd. by exists U'. }
        apply wp_elim in Hwp as (o & t' & E & U' & Hok' & Hd). exists U'. split; [|done].
        unfold rb_step, call, mbind, M_bind. by rewrite E. }
    assert (∀ o, (call (rb_step cmp (Some o)) t).2 = t → ∃ U', rbok (call (rb_step cmp (Some o)) t).2 U' ∧
      hdraw U' = restocked (hdraw U) (om_spec cmp cap o (inorder (unpainted (hdraw U)))).2) as Hrd.
    { intros o E. exists U. rewrite E. split; [done|]. eapply hvalues_step; [exact Hok|by rewrite E|apply same_shape_refl]. }
    assert (∀ (A : Type) (f : rbt K V → res A) (g : A → M (rbt K V) (om_out K V)), (∀ a, ∃ r, g a t = Ret r t) → (call (gets f ≫= g) t).2 = t) as Hg.
    { intros A f g Hg. unfold call, mbind, M_bind, gets. destruct (f t) as [a|e]; [|done]. by destruct (Hg a) as [r ->]. }
    assert (∀ k f, ∃ U', rbok (call (rb_step cmp (Some (MGetMut k f))) t).2 U' ∧ same_shape U U' ∧
      (call (rb_step cmp (Some (MIndexMut k f))) t).2 = (call (rb_step cmp (Some (MGetMut k f))) t).2) as Hgm.
    { intros k f. assert (wp (rb_get_mut cmp k f) t (λ o t', ∃ U', rbok t' U' ∧ same_shape U U')) as Hwp.
      { eapply wp_get_mut'; [exact HO|exact _|exact Hok|]. intros o t' U' Hok' _ _ Hss. by exists U'. }
      apply wp_elim in Hwp as (o & t' & E & U' & Hok' & Hss). exists U'. unfold rb_step, om_step, call, mbind, M_bind. cbn [rb_api a_get_mut a_index_mut].
      rewrite E. cbn [snd mret M_ret]. split_and!; [done|done|]. unfold rb_index_mut, mbind, M_bind. rewrite E. by destruct o. }
    destruct op as [k v|k|k|k f|k| | | | | |k|k f|sc|sc]; cbn [hstep]; try (by apply Hrd; apply Hg; intros a; eexists); try (by apply Hrd).
    - assert (wp (rb_insert cmp k v) t (λ o t', ∃ U', rbok t' U' ∧ hdraw U' = hstep cmp cap (Some (MInsert k v)) (hdraw U))) as Hwp.
      { eapply wp_insert_exact; [exact HO|exact _|exact Hok|lia|]. intros o t' U' Hok' Hins Hn Hs. cbn [hstep]. rewrite hdraw_inorder.
        inversion Hins as [A B i kv HE Hk HA HB|A B i HE Hl HA HB _ _ _|A B HE Hl HA HB]; subst.
        - exists U'. split; [done|]. rewrite Hs by done. rewrite HE, fmap_app, fmap_cons. cbn [snd].
          by rewrite (om_find_found cmp k A.*2 kv B.*2 HA Hk).
        - exists U'. split; [done|]. rewrite Hs by done. assert (om_find cmp k (entries U).*2 = None) as ->; [rewrite HE, fmap_app; by apply om_find_absent|].
          rewrite decide_True; [done|]. unfold lengthN in *. by rewrite fmap_length.
        - exists U. rewrite Hn by done. split; [done|]. assert (om_find cmp k (entries U).*2 = None) as ->; [rewrite HE, fmap_app; by apply om_find_absent|].
          rewrite decide_False; [done|]. unfold lengthN in *. rewrite fmap_length. lia. }
      apply wp_elim in Hwp as (o & t' & E & U' & Hok' & Hd). exists U'. cbn [hstep] in Hd. split; [|done].
      unfold rb_step, om_step, call, mbind, M_bind. cbn [rb_api a_insert]. by rewrite E.
    - assert (wp (rb_remove cmp k) t (λ o t', ∃ U', rbok t' U' ∧ hdraw U' = hremove cmp k (hdraw U))) as Hwp.
      { eapply wp_remove_exact; [exact HO|exact _|exact Hok|]. intros o t' U' Hok' _ _ Hd. by exists U'. }
      apply wp_elim in Hwp as (o & t' & E & U' & Hok' & Hd). exists U'. split; [|done].
      unfold rb_step, om_step, call, mbind, M_bind. cbn [rb_api a_remove]. by rewrite E.
    - destruct (Hgm k f) as (U' & Hok' & Hss & _). exists U'. split; [done|]. by eapply hvalues_step.
    - destruct (Hgm k f) as (U' & Hok' & Hss & E). rewrite <- E in Hok'. exists U'. split; [done|]. by eapply hvalues_step.
    - assert (wp (rb_iterate_mut sc) t (λ o t', ∃ U', rbok t' U' ∧ same_shape U U')) as Hwp.
      { eapply rb_iterate_mut_ok; [exact _|exact Hok|]. intros t' U' Hok' Hss _. by exists U'. }
      apply wp_elim in Hwp as (o & t' & E & U' & Hok' & Hss).
      assert ((call (rb_step cmp (Some (MIterMut sc))) t).2 = t') as Et.
      { unfold rb_step, om_step, call, mbind, M_bind. cbn [rb_api a_iter_mut]. by rewrite E. }
      rewrite <- Et in Hok'. exists U'. split; [done|]. by eapply hvalues_step.
  Qed.
  Lemma hue_history o : ∀ (t : rbt K V) U, rbok t U →
    ∃ U', rbok (history (rb_step cmp) o t).2 U' ∧ hdraw U' = fold_left (λ b o, hstep cmp cap o b) o (hdraw U).
  Proof using H HO H0.
    clear Hw. induction o as [|op o IH]; intros t U Hok; [by exists U|]. cbn [history fold_left].
    destruct (hue_one t U op Hok) as (U1 & Hok1 & Hd1). destruct (call (rb_step cmp op) t) as [r t1]. cbn [snd] in Hok1.
    destruct (IH t1 U1 Hok1) as (U2 & Hok2 & Hd2). exists U2. destruct (history (rb_step cmp) o t1) as [rs t2]. cbn [snd] in *. by rewrite Hd2, Hd1.
  Qed.
  Lemma hue_reach (o : ops) : ∃ U, rbok (after o) U ∧ hdraw U = hue_tree cmp cap o.
  Proof using H HO H0 Hw. destruct (hue_history o (rb_new ms d) Lf) as (U & Hok & Hd); [by apply rbok_new|]. by exists U. Qed.
  Lemma hue_iff (o : ops) b : rb_drawn (after o) b ↔ b = hue_tree cmp cap o.
  Proof using H HO H0 Hw. destruct (hue_reach o) as (U & Hok & Hd). rewrite (rbok_drawn _ _ _ Hok). by rewrite Hd. Qed.
  Lemma hue_contents (o : ops) : holds o (inorder (unpainted (hue_tree cmp cap o))) ∧ is_red (hue_tree cmp cap o) = false ∧ ∃ n, proper n (hue_tree cmp cap o).
  Proof using H HO H0 Hw.
    destruct (rb_reach cmp HO ms d o H0 Hw) as (U & l & Hl & Hok & <-). destruct (hue_reach o) as (U' & Hok' & <-).
    rewrite (rbok_hdraw _ _ _ Hok' Hok). rewrite hdraw_inorder. split; [done|]. destruct Hok as [_ [Hm [n Hn]] _]. rewrite hdraw_red, Hm.
    split; [done|]. exists n. by apply hdraw_proper.
  Qed.
  Lemma hue_insert_fact (o : ops) k v b : rb_drawn (after o) b →
    lengthN (inorder (unpainted b)) < cap ∨ (∃ x, x ∈ inorder (unpainted b) ∧ cmp k x.1 = Eq) →
    ∃ i t', rb_insert cmp k v (after o) = Ret (Some i) t' ∧ rb_drawn t' (hinsert cmp k v b).
  Proof using H HO H0 Hw.
    intros Hb Hroom. destruct (hue_reach o) as (U & Hok & _). apply (rbok_drawn _ _ _ Hok) in Hb as ->.
    assert (wp (rb_insert cmp k v) (after o) (λ r t', ∃ i, r = Some i ∧ rb_drawn t' (hinsert cmp k v (hdraw U)))) as Hwp.
    { eapply wp_insert_exact; [exact HO|exact _|exact Hok|lia|]. intros r t' U' Hok' Hins Hn Hs. inversion Hins as [A B i kv HE Hk HA HB|A B i HE Hl HA HB _ _ _|A B HE Hl HA HB]; subst.
      1, 2: exists i; split; [done|]; apply (rbok_drawn _ _ _ Hok'); rewrite Hs by done; done.
      exfalso. rewrite hdraw_inorder in Hroom. destruct Hroom as [Hr|(x & Hx & Ex)].
      - unfold lengthN in *. rewrite fmap_length in Hr. lia.
      - rewrite HE, fmap_app in Hx. unfold below, above in *. rewrite Forall_forall in HA, HB.
        apply elem_of_app in Hx as [Hx|Hx]; [specialize (HA _ Hx)|specialize (HB _ Hx)]; congruence. }
    apply wp_elim in Hwp as (r & t' & E & i & -> & Hd). by exists i, t'.
  Qed.
  Lemma hue_remove_fact (o : ops) k b : rb_drawn (after o) b →
    ∃ r t', rb_remove cmp k (after o) = Ret r t' ∧ rb_drawn t' (hremove cmp k b) ∧ (r = None ↔ om_find cmp k (inorder (unpainted b)) = None).
  Proof using H HO H0 Hw.
    intros Hb. destruct (hue_reach o) as (U & Hok & _). apply (rbok_drawn _ _ _ Hok) in Hb as ->.
    assert (wp (rb_remove cmp k) (after o) (λ r t', rb_drawn t' (hremove cmp k (hdraw U)) ∧ (r = None ↔ om_find cmp k (inorder (unpainted (hdraw U))) = None))) as Hwp.
    { eapply wp_remove_exact; [exact HO|exact _|exact Hok|]. intros r t' U' Hok' Hrem _ Hd. split; [by apply (rbok_drawn _ _ _ Hok')|].
      rewrite hdraw_inorder. inversion Hrem as [A B i kv HE Hk HA HB|A B HE HA HB]; subst.
      - rewrite HE, fmap_app, fmap_cons. cbn [snd]. by rewrite (om_find_found cmp k A.*2 kv B.*2 HA Hk).
      - rewrite HE, fmap_app. by rewrite (om_find_absent cmp k A.*2 B.*2 HA HB). }
    apply wp_elim in Hwp as (r & t' & E & Hd). by exists r, t'.
  Qed.
  Lemma hue_remove_root_fact (o : ops) m l x r : rb_drawn (after o) (Knot m l x r) →
    ∃ t', rb_remove_root (after o) = Ret (Some x) t' ∧ rb_drawn t' (blackened (without_root m l r).1).
  Proof using H HO H0 Hw.
    intros Hb. destruct (hue_reach o) as (U & Hok & _). apply (rbok_drawn _ _ _ Hok) in Hb.
    assert (wp rb_remove_root (after o) (λ a t', a = Some x ∧ rb_drawn t' (blackened (without_root m l r).1))) as Hwp.
    { eapply wp_remove_root_exact; [exact HO|exact _|exact Hok| |].
      - intros ->. done.
      - intros m' l' i kv r' t' U' -> Hok' _ _ Hd. cbn [hdraw] in Hb. injection Hb as -> -> -> ->. split; [done|]. by apply (rbok_drawn _ _ _ Hok'). }
    apply wp_elim in Hwp as (a & t' & E & -> & Hd). by exists t'.
  Qed.
End main.

Lemma hue_same_tree {K V} (P1 P2 : Profile) (cmp : K → K → comparison) (ms1 ms2 : nat) (d1 d2 : K * V) (o : list (option (om_op K V))) (b : painted (K * V)) :
  OrdLaws cmp → (0 < ms1)%nat → (0 < ms2)%nat → N.of_nat ms1 + 1 < W32 → N.of_nat ms2 + 1 < W32 →
  (length (filter inserts o) ≤ ms1 `min` ms2)%nat →
  @rb_drawn P1 K V (@rb_after P1 K V cmp ms1 d1 o) b ↔ @rb_drawn P2 K V (@rb_after P2 K V cmp ms2 d2 o) b.
Proof.
  intros HO H1 H2 Hw1 Hw2 Hl. etransitivity; [exact (@hue_iff P1 K V cmp HO ms1 d1 H1 Hw1 o b)|].
  symmetry. etransitivity; [exact (@hue_iff P2 K V cmp HO ms2 d2 H2 Hw2 o b)|]. symmetry.
  unfold hue_tree. rewrite (hroom_history cmp (N.of_nat ms1) (N.of_nat ms2)); [done|..]; cbn [inorder unpainted]; unfold lengthN; cbn [length]; lia.
Qed.
