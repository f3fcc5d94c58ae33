(** * Rebalancing of the red-black tree model *)
From Verif Require Export RBInv.

Ltac lassoc := simpl; rewrite <- ?app_assoc; simpl; rewrite <- ?app_assoc; simpl; rewrite <- ?app_assoc; done.

Section fixup.
  Context `{Profile} {K V : Type} {G : Ghost (K * V)} (cap : N).
  Notation tree := (tree (K * V)).
  Notation frame := (frame (K * V)).
  Notation rbt := (rbt K V).
  Notation rep := (rep (K := K) (V := V) cap).
  Implicit Types t : rbt.
  Implicit Types s x y z o U : tree.
  Implicit Types ctx : list frame.

  Lemma rep_frame_red t U d m p kvp o ctx s :
    rep t U → U = plug (F d m p kvp o :: ctx) s → rb_is_red t p = Val (bool_decide (m = 1)).
  Proof.
    intros HR HU. pose proof (rep_red cap t U ctx (mk d m s p kvp o) HR HU) as Hp.
    rewrite root_mk in Hp. rewrite Hp. by destruct d.
  Qed.
  Lemma rep_frame_parent t U d m p kvp o ctx s :
    rep t U → U = plug (F d m p kvp o :: ctx) s → rb_get_parent t p = Val (ctop ctx).
  Proof.
    intros HR HU. pose proof (rep_parent cap t U ctx (mk d m s p kvp o) HR HU) as Hp.
    rewrite root_mk in Hp. apply Hp. by destruct d.
  Qed.
  Lemma rep_frame_nz t U d m p kvp o ctx s : rep t U → U = plug (F d m p kvp o :: ctx) s → p ≠ 0.
  Proof.
    intros HR HU. pose proof (rep_nz' cap t U ctx (mk d m s p kvp o) HR HU) as Hp.
    rewrite root_mk in Hp. apply Hp. by destruct d.
  Qed.
  Lemma rep_frame_child_dir t U d m p kvp o d' m' g kvg o' ctx s :
    rep t U → U = plug (F d m p kvp o :: F d' m' g kvg o' :: ctx) s → rb_child_dir t g p = Val (dN d').
  Proof.
    intros HR HU. pose proof (rep_child_dir cap t U d' m' g kvg o' ctx (mk d m s p kvp o) HR HU) as Hp.
    rewrite root_mk in Hp. apply Hp. by destruct d.
  Qed.

  Lemma rep_dir t U ctx d m x i kv y :
    rep t U → U = plug ctx (mk d m x i kv y) → rb_get_dir t i (dN d) = Val (root x).
  Proof. rewrite rb_get_dir_child. apply rep_child. Qed.
  Lemma rep_dir_opp t U ctx d m x i kv y :
    rep t U → U = plug ctx (mk d m x i kv y) → rb_get_dir t i (opposite (dN d)) = Val (root y).
  Proof. rewrite opposite_dN, rb_get_dir_child, <- opposite_dN. apply rep_child_opp. Qed.

  (** Loop of [_fix_insert]: the only flaw may be a red parent of the red node in the hole *)
  Lemma wp_fix_insert_loop fuel t ctx i kv x y n (Q : () → rbt → Prop) :
    rep t (plug ctx (Nd 1 x i kv y)) → rbi (Nd 1 x i kv y) n → cx ctx n → (length ctx < fuel)%nat →
    (∀ t' U' n', rep t' U' → rbi U' n' → entries U' = entries (plug ctx (Nd 1 x i kv y)) → Q () t') →
    wp (rb_fix_insert_loop fuel i) t Q.
  Proof.
    revert t ctx i kv x y n. induction fuel as [|fuel IH]; intros t ctx i kv x y n HR Hs Hc Hf HQ; [lia|].
    simpl. apply wp_bind. eapply wp_gets; [exact (rep_parent cap t _ ctx (Nd 1 x i kv y) HR eq_refl ltac:(done))|].
    destruct ctx as [|[d m p kvp o] ctx]; simpl ctopb.
    { apply wp_bind. eapply wp_gets; [done|]. simpl. apply wp_ret. by eapply HQ. }
    apply wp_bind. eapply wp_gets; [by eapply rep_frame_red|].
    inversion Hc as [|? ? ? ? ? ? Ho Hc'|? ? ? ? f ctx0 ? Ho Hmo Hfm Hc']; subst.
    { rewrite bool_decide_eq_false_2 by done. apply wp_ret.
      destruct (cx_plug _ _ _ Hs Hc) as [n' Hn']; [done|]. by eapply HQ. }
    rewrite bool_decide_eq_true_2 by done. simpl negb. cbv iota.
    apply wp_bind. eapply wp_gets; [by eapply rep_frame_parent|].
    destruct f as [d' m' g kvg u]. simpl in Hfm. subst m'. simpl ctopb.
    apply cx_tail in Hc' as [Hc' Hu]; [|done]. simpl in Hu.
    rewrite decide_False.
    2:{ eapply (rep_frame_nz _ _ d' 0 g kvg u ctx0 (mk d 1 (Nd 1 x i kv y) p kvp o)); [exact HR|done]. }
    apply wp_bind. eapply wp_gets; [by eapply rep_frame_child_dir|].
    apply wp_bind. eapply wp_gets.
    { eapply (rep_child_opp cap t _ ctx0 d' 0 (mk d 1 (Nd 1 x i kv y) p kvp o) g kvg u); [exact HR|done]. }
    apply wp_bind. eapply wp_gets.
    { eapply (rep_red cap t _ (F (negb d') 0 g kvg (mk d 1 (Nd 1 x i kv y) p kvp o) :: ctx0) u); [exact HR|dirs]. }
    case_bool_decide as Hmu.
    - (* red uncle *)
      apply wp_bind. eapply (rep_black_set cap t _ (F (negb d') 0 g kvg (mk d 1 (Nd 1 x i kv y) p kvp o) :: ctx0) u);
        [exact HR|dirs|]. clear t HR. intros t HR.
      apply wp_bind. rewrite <- (root_mk d 1 (Nd 1 x i kv y) p kvp o) at 1.
      eapply (rep_black_set cap t _ (F d' 0 g kvg (setm 0 u) :: ctx0) (mk d 1 (Nd 1 x i kv y) p kvp o)); [exact HR|dirs|].
      rewrite setm_mk. clear t HR. intros t HR.
      apply wp_bind. rewrite <- (root_mk d' 0 (mk d 0 (Nd 1 x i kv y) p kvp o) g kvg (setm 0 u)) at 1.
      eapply (rep_red_set cap t _ ctx0); [exact HR|done|]. rewrite setm_mk. clear t HR. intros t HR.
      assert (rbi (mk d' 1 (mk d 0 (Nd 1 x i kv y) p kvp o) g kvg (setm 0 u)) (S n)) as Hr.
      { apply rbi_mk_red.
        - by apply rbi_mk_black.
        - inversion Hu; subst; simpl in *; try done. by constructor.
        - by destruct d.
        - apply setm_mark. }
      assert (∃ x' y', mk d' 1 (mk d 0 (Nd 1 x i kv y) p kvp o) g kvg (setm 0 u) = Nd 1 x' g kvg y') as (x' & y' & He).
      { destruct d'; simpl; eauto. }
      rewrite He in *. eapply IH; [exact HR|exact Hr|done|simpl in *; lia|].
      intros t' U' n' HR' Hr' Hent. eapply HQ; [done..|]. rewrite Hent. simpl. rewrite !entries_plug, <- He.
      destruct d', d; simpl; by rewrite ?setm_entries.
    - (* black uncle *)
      apply wp_bind. eapply wp_gets. { eapply (rep_child_dir cap t _ d 1 p kvp o _ (Nd 1 x i kv y)); [exact HR|done|done]. }
      set (X := Nd 1 x i kv y) in *.
      (* after the first rotation, if any *)
      assert (wp (if decide (dN d = opposite (dN d')) then rb_rotate_dir p (dN d');; mret p else mret i) t
        (λ node t, ∃ q kvq x1 y1 kvn z1,
           rep t (plug ctx0 (mk d' 0 (mk d' 1 (Nd 1 x1 node kvn y1) q kvq z1) g kvg u)) ∧
           rbi (Nd 1 x1 node kvn y1) n ∧ rbi z1 n ∧ mark z1 = 0 ∧
           entries (mk d' 1 (Nd 1 x1 node kvn y1) q kvq z1) = entries (mk d 1 X p kvp o))) as Hrot.
      { case_decide as Hdd.
        - assert (d = negb d') as -> by by destruct d, d'.
          destruct (mk_dir d' X) as (mx & x1 & i' & kv' & y1 & Hx); [done|].
          assert (mx = 1 ∧ i' = i) as [-> ->] by (unfold X in Hx; destruct d'; simpl in Hx; by simplify_eq).
          rewrite Hx in *. apply rbi_mk_inv in Hs as [(_ & Hx1 & Hy1 & Hmx & Hmy)|(? & _)]; [|done].
          apply wp_bind. eapply (rep_rotate cap t _ (F d' 0 g kvg u :: ctx0) d' 1 o p kvp 1 x1 i kv' y1); [exact HR|dirs|].
          intros t' HR'. apply wp_ret.
          exists i, kv', (if d' then x1 else o), (if d' then o else x1), kvp, y1. split_and!.
          + destruct d'; exact HR'.
          + destruct d'; by constructor.
          + done.
          + done.
          + destruct d'; simpl; rewrite <- !app_assoc; done.
        - assert (d = d') as -> by by destruct d, d'. apply wp_ret.
          exists p, kvp, x, y, kv, o. split_and!; done. }
      apply wp_bind. eapply wp_mono; [exact Hrot|].
      clear t HR Hrot. intros node t (q & kvq & x1 & y1 & kvn & z1 & HR & Hr & Hz & Hmz & Hent).
      assert (i = i) by done. clear IH.
      apply wp_bind. eapply wp_gets.
      { eapply (rep_parent cap t _ (F d' 1 q kvq z1 :: F d' 0 g kvg u :: ctx0) (Nd 1 x1 node kvn y1)); [exact HR|done|done]. }
      simpl ctopb. apply wp_bind. eapply wp_gets.
      { eapply (rep_frame_parent t _ d' 1 q kvq z1 (F d' 0 g kvg u :: ctx0) (Nd 1 x1 node kvn y1)); [exact HR|done]. }
      simpl ctopb. apply wp_bind. rewrite <- (root_mk d' 1 (Nd 1 x1 node kvn y1) q kvq z1) at 1.
      eapply (rep_black_set cap t _ (F d' 0 g kvg u :: ctx0)); [exact HR|done|]. rewrite setm_mk. clear t HR. intros t HR.
      apply wp_bind. rewrite <- (root_mk d' 0 (mk d' 0 (Nd 1 x1 node kvn y1) q kvq z1) g kvg u) at 1.
      eapply (rep_red_set cap t _ ctx0); [exact HR|done|]. rewrite setm_mk. clear t HR. intros t HR.
      apply wp_bind. rewrite opposite_dN.
      eapply (rep_rotate cap t _ ctx0 (negb d') 1 u g kvg 0 z1 q kvq (Nd 1 x1 node kvn y1)); [exact HR|dirs|].
      clear t HR. intros t HR.
      destruct fuel as [|fuel]; [simpl in Hf; lia|]. simpl.
      apply wp_bind. eapply wp_gets.
      { eapply (rep_parent cap t _ (F d' 0 q kvq (mk (negb d') 1 u g kvg z1) :: ctx0) (Nd 1 x1 node kvn y1)); [exact HR|dirs|done]. }
      simpl ctopb. apply wp_bind. eapply wp_gets.
      { eapply (rep_frame_red t _ d' 0 q kvq (mk (negb d') 1 u g kvg z1) ctx0 (Nd 1 x1 node kvn y1)); [exact HR|dirs]. }
      simpl. apply wp_ret.
      assert (rbi (mk (negb d') 0 (mk (negb d') 1 u g kvg z1) q kvq (Nd 1 x1 node kvn y1)) (S n)) as Hfin.
      { apply rbi_mk_black; [|done]. apply rbi_mk_red; try done. by destruct (rbi_mark _ _ Hu). }
      destruct (cx_plug _ _ _ Hfin Hc') as [n' Hn'].
      { intros Hne. destruct ctx0; [done|]. intros _. by destruct d'. }
      eapply HQ; [exact HR|exact Hn'|]. simpl. rewrite !entries_plug. f_equal. f_equal.
      rewrite (entries_mk d' 0 (mk d 1 X p kvp o)), <- Hent. destruct d'; simpl; by rewrite <- !app_assoc.
  Qed.

  Lemma wp_fix_insert t ctx i kv x y n (Q : () → rbt → Prop) :
    rep t (plug ctx (Nd 1 x i kv y)) → rbi (Nd 1 x i kv y) n → cx ctx n →
    (∀ t' U' n', rep t' U' → rbi U' n' → mark U' = 0 → entries U' = entries (plug ctx (Nd 1 x i kv y)) → Q () t') →
    wp (rb_fix_insert i) t Q.
  Proof.
    intros HR Hs Hc HQ. unfold rb_fix_insert. apply wp_bind, wp_mget, wp_bind.
    eapply wp_fix_insert_loop; [done..| |].
    { pose proof (rep_tsize _ _ _ HR) as Hsz. rewrite tsize_plug in Hsz. pose proof (csize_length ctx).
      erewrite R_fuel by exact HR. lia. }
    intros t' U' n' HR' Hr' Hent. apply wp_bind, wp_mget. rewrite (rep_root _ _ _ HR').
    eapply (rep_black_set cap t' _ [] U'); [done..|]. simpl. intros t'' HR''.
    destruct (rbi_setm_black _ _ Hr') as [n'' Hn'']. eapply HQ; [exact HR''|exact Hn''|apply setm_mark|].
    by rewrite setm_entries.
  Qed.

  Lemma cx_frame_inv d c p kvp o ctx n :
    cx (F d c p kvp o :: ctx) n →
    rbi o n ∧ (c = 0 ∧ cx ctx (S n) ∨ c = 1 ∧ mark o = 0 ∧ cx ctx n ∧ ∃ f ctx', ctx = f :: ctx' ∧ fm f = 0).
  Proof. inversion 1; subst; split; eauto 10. Qed.

  (** Loop of [_fix_remove]: the hole is one black node short *)
  Lemma wp_fix_remove_loop fuel t d c p kvp o ctx x n (Q : () → rbt → Prop) :
    rep t (plug (F d c p kvp o :: ctx) x) → rbi x n → cx (F d c p kvp o :: ctx) (S n) → (length ctx < fuel)%nat →
    (∀ t' U' n', rep t' U' → rbi U' n' → mark U' = 0 → entries U' = entries (plug (F d c p kvp o :: ctx) x) → Q () t') →
    wp (rb_fix_remove_loop fuel p (dN d)) t Q.
  Proof.
    revert t d c p kvp o ctx x n. induction fuel as [|fuel IH]; intros t d c p kvp o ctx x n HR Hx Hc Hf HQ; [lia|].
    simpl rb_fix_remove_loop.
    apply wp_bind. eapply wp_gets; [eapply (rep_child_opp cap t _ ctx d c x p kvp o); [exact HR|done]|].
    apply wp_bind. eapply wp_gets; [eapply (rep_red cap t _ (F (negb d) c p kvp x :: ctx) o); [exact HR|dirs]|].
    apply cx_frame_inv in Hc as [Ho Hc].
    set (E := entries (plug (F d c p kvp o :: ctx) x)) in *.
    match goal with |- wp (mbind ?k ?m) _ _ => assert (wp m t (λ sib t, ∃ c' ctx' y (s : N) kvs z, sib = s ∧
        rep t (plug ctx' (mk d c' x p kvp (mk d 0 y s kvs z))) ∧ rbi y n ∧ rbi z n ∧
        (c' = 0 ∧ cx ctx' (S (S n)) ∨ c' = 1 ∧ cx ctx' (S n) ∧ ∃ f ctx0, ctx' = f :: ctx0 ∧ fm f = 0) ∧
        (c' = 0 → ctx' = ctx) ∧
        entries (plug ctx' (mk d c' x p kvp (mk d 0 y s kvs z))) = E)) as HA end.
    { destruct (mk_dir d o) as (mo & y & s & kvs & z & ->); [by eapply rbi_S_ne|].
      assert (mark (mk d mo y s kvs z) = mo) as Hmk by by destruct d. rewrite Hmk in *.
      apply rbi_mk_inv in Ho as [(-> & Hy & Hz & Hmy & Hmz)|(-> & n' & [= <-] & Hy & Hz)].
      - rewrite bool_decide_eq_true_2 by done. destruct Hc as [[-> Hc]|(_ & ? & _)]; [|done].
        apply wp_bind. eapply (rep_black_set cap t _ (F (negb d) 0 p kvp x :: ctx)); [exact HR|dirs|].
        rewrite setm_mk. clear t HR. intros t HR.
        apply wp_bind. rewrite <- (root_mk d 0 x p kvp (mk d 0 y s kvs z)).
        eapply (rep_red_set cap t _ ctx); [exact HR|dirs|]. rewrite setm_mk, root_mk. clear t HR. intros t HR.
        apply wp_bind. eapply (rep_rotate cap t _ ctx d 1 x p kvp 0 y s kvs z); [exact HR|done|]. clear t HR. intros t HR.

        eapply wp_gets; [eapply (rep_dir_opp t _ (F d 0 s kvs z :: ctx) d 1 x p kvp y); [exact HR|done]|].
        destruct (mk_dir d y) as (my & y1 & i1 & kv1 & z1 & ->); [by eapply rbi_S_ne|].
        assert (mark (mk d my y1 i1 kv1 z1) = my) as Hmk2 by by destruct d. rewrite Hmk2 in *. subst my.
        apply rbi_mk_inv in Hy as [(? & _)|(_ & n' & [= <-] & Hy1 & Hz1)]; [done|].
        exists 1, (F d 0 s kvs z :: ctx), y1, i1, kv1, z1. rewrite root_mk. split_and!; try done.
        + right. split_and!; [done| |by eauto]. by constructor.
        + unfold E. simpl. rewrite !entries_plug. destruct d; lassoc.
      - rewrite bool_decide_eq_false_2 by done. apply wp_ret. exists c, ctx, y, s, kvs, z. rewrite root_mk.
        split_and!; try done. destruct Hc as [?|(? & ? & ? & ?)]; [by left|right; eauto]. }
    apply wp_bind. eapply wp_mono; [exact HA|]. clear t HR HA Hc Ho.
    intros s0 t (c' & ctx' & y & s & kvs & z & -> & HR & Hy & Hz & Hc & Hcc & HE).
    clearbody E.
    set (ly := if d then z else y). set (ry := if d then y else z).
    assert (mk d 0 y s kvs z = Nd 0 ly s kvs ry) as Hmk by by destruct d.
    apply wp_bind. eapply wp_gets.
    { eapply (rep_left cap t _ (F (negb d) c' p kvp x :: ctx') 0 ly s kvs ry); [exact HR|unfold ly, ry; dirs]. }
    apply wp_bind. eapply wp_gets.
    { eapply (rep_black cap t _ (F false 0 s kvs ry :: F (negb d) c' p kvp x :: ctx') ly); [exact HR|unfold ly, ry; dirs]. }
    match goal with |- wp (mbind ?k ?m) _ _ =>
      assert (wp m t (λ both t', t' = t ∧ both = bool_decide (mark y = 0 ∧ mark z = 0))) as HB end.
    { case_bool_decide as Hl.
      - apply wp_bind. eapply wp_gets.
        { eapply (rep_right cap t _ (F (negb d) c' p kvp x :: ctx') 0 ly s kvs ry); [exact HR|unfold ly, ry; dirs]. }
        eapply wp_gets.
        { eapply (rep_black cap t _ (F true 0 s kvs ly :: F (negb d) c' p kvp x :: ctx') ry); [exact HR|unfold ly, ry; dirs]. }
        split; [done|]. apply bool_decide_ext. unfold ly, ry in *. destruct d; tauto.
      - apply wp_ret. split; [done|]. symmetry. apply bool_decide_eq_false. unfold ly, ry in *. destruct d; tauto. }
    apply wp_bind. eapply wp_mono; [exact HB|]. clear HB. intros both t' [-> ->].
    case_bool_decide as Hyz.
    - (* both nephews black *)
      destruct Hyz as [Hmy Hmz].
      apply wp_bind, wp_bind. rewrite <- (root_mk d 0 y s kvs z).
      eapply (rep_red_set cap t _ (F (negb d) c' p kvp x :: ctx')); [exact HR|dirs|].
      rewrite setm_mk. clear t HR. intros t HR. apply wp_ret.
      set (o' := mk d 1 y s kvs z).
      assert (rbi o' n) as Ho' by by apply rbi_mk_red.
      assert (rep t (plug ctx' (mk d c' x p kvp o'))) as HR'. { unfold o'. destruct d; exact HR. } clear HR.
      assert (entries (plug ctx' (mk d c' x p kvp o')) = E) as HE'.
      { rewrite <- HE, !entries_plug. unfold o'. by destruct d. }
      assert (rbi (mk d 0 x p kvp o') (S n)) as Hm0 by by apply rbi_mk_black.
      apply wp_bind, wp_mget.
      pose proof (rep_is_root cap t _ ctx' (mk d c' x p kvp o') HR' eq_refl ltac:(by destruct d)) as Hir.
      rewrite root_mk in Hir. rewrite Hir. clear Hir.
      assert ((c' = 1 ∨ ctx' = []) → wp (rb_color_black p) t Q) as Hstop.
      { intros Hcase. rewrite <- (root_mk d c' x p kvp o'). eapply (rep_black_set cap t _ ctx'); [exact HR'|done|].
        rewrite setm_mk. clear t HR'. intros t HR'.
        assert (entries (plug ctx' (mk d 0 x p kvp o')) = E) as HE0.
        { rewrite <- HE', !entries_plug. by destruct d. }
        destruct ctx' as [|f ctx'].
        - eapply HQ; [exact HR'|exact Hm0|by destruct d|done].
        - destruct Hcase as [->|?]; [|done].
          destruct Hc as [[? _]|(_ & Hc & f' & ctx0 & [= <- <-] & Hfm)]; [done|].
          destruct (cx_plug _ _ _ Hm0 Hc) as [n' Hn']. { intros _ Hfm1. congruence. }
          eapply HQ; [exact HR'|exact Hn'| |done]. by eapply cx_root. }
      destruct ctx' as [|[df mf pf kvf of] ctx'].
      + apply wp_bind, wp_ret. apply Hstop; by right.
      + apply wp_bind. eapply wp_gets.
        { pose proof (rep_red cap t _ _ (mk d c' x p kvp o') HR' eq_refl) as Hr. rewrite root_mk in Hr. exact Hr. }
        assert (mark (mk d c' x p kvp o') = c') as -> by by destruct d.
        case_bool_decide as Hc1; [apply Hstop; by left|].
        destruct Hc as [[-> Hc]|(-> & _)]; [|done]. specialize (Hcc eq_refl). subst ctx.
        apply wp_bind. eapply wp_gets.
        { pose proof (rep_parent cap t _ _ (mk d 0 x p kvp o') HR' eq_refl) as Hr. rewrite root_mk in Hr.
          apply Hr. by destruct d. }
        simpl ctopb. apply wp_bind. eapply wp_gets.
        { pose proof (rep_child_dir cap t _ df mf pf kvf of ctx' (mk d 0 x p kvp o') HR' eq_refl) as Hr. rewrite root_mk in Hr.
          apply Hr. by destruct d. }
        eapply IH; [exact HR'|exact Hm0|exact Hc|simpl in Hf; lia|].
        intros t' U' n' HR1 Hr1 Hm1 He1. eapply HQ; [done..|]. by rewrite He1, HE'.
    - (* a red nephew *)
      clear IH. apply wp_bind, wp_bind.

      eapply wp_gets.
      { eapply (rep_dir_opp t _ (F (negb d) c' p kvp x :: ctx') d 0 y s kvs z); [exact HR|dirs]. }
      apply wp_bind. eapply wp_gets.
      { eapply (rep_black cap t _ (F (negb d) 0 s kvs y :: F (negb d) c' p kvp x :: ctx') z); [exact HR|dirs]. }
      match goal with |- wp (mbind ?k ?m) _ _ => assert (wp m t (λ sib t, ∃ y (s : N) kvs z, sib = s ∧
        rep t (plug ctx' (mk d c' x p kvp (mk d 0 y s kvs z))) ∧ rbi y n ∧ rbi z n ∧ mark z = 1 ∧
        entries (plug ctx' (mk d c' x p kvp (mk d 0 y s kvs z))) = E)) as HA end.
      { case_bool_decide as Hmz.
        - assert (mark y = 1) as Hmy. { destruct (rbi_mark _ _ Hy); [|done]. exfalso. by apply Hyz. }
          destruct (mk_dir d y) as (my & y1 & w & kvw & y2 & ->); [by apply mark_ne|].
          assert (mark (mk d my y1 w kvw y2) = my) as Hmk2 by by destruct d. rewrite Hmk2 in *. subst my.
          apply rbi_mk_inv in Hy as [(_ & Hy1 & Hy2 & Hmy1 & Hmy2)|(? & _)]; [|done].
          apply wp_bind. eapply wp_gets.
          { eapply (rep_dir t _ (F (negb d) c' p kvp x :: ctx') d 0 _ s kvs z); [exact HR|dirs]. }
          apply wp_bind. eapply (rep_black_set cap t _ (F d 0 s kvs z :: F (negb d) c' p kvp x :: ctx')); [exact HR|dirs|].
          rewrite setm_mk. clear t HR. intros t HR.
          apply wp_bind. rewrite <- (root_mk d 0 (mk d 0 y1 w kvw y2) s kvs z).
          eapply (rep_red_set cap t _ (F (negb d) c' p kvp x :: ctx')); [exact HR|dirs|].
          rewrite setm_mk, root_mk. clear t HR. intros t HR.
          apply wp_bind. rewrite opposite_dN.
          eapply (rep_rotate cap t _ (F (negb d) c' p kvp x :: ctx') (negb d) 1 z s kvs 0 y2 w kvw y1); [exact HR|dirs|].
          clear t HR. intros t HR.

          rewrite <- opposite_dN. eapply wp_gets.
          { eapply (rep_dir_opp t _ ctx' d c' x p kvp (mk d 0 y1 w kvw (mk d 1 y2 s kvs z))); [exact HR|dirs]. }
          exists y1, w, kvw, (mk d 1 y2 s kvs z). rewrite root_mk. split_and!; try done.
          + destruct d; exact HR.
          + by apply rbi_mk_red.
          + by destruct d.
          + rewrite <- HE, !entries_plug. destruct d; lassoc.
        - apply wp_ret. exists y, s, kvs, z. split_and!; try done.
          destruct (rbi_mark _ _ Hz); done. }
      apply wp_bind. eapply wp_mono; [exact HA|]. clear t HR HA HE y s kvs z Hy Hz Hyz ly ry Hmk.
      intros s0 t (y & s & kvs & z & -> & HR & Hy & Hz & Hmz & HE).
      apply wp_bind. eapply wp_gets.
      { pose proof (rep_color cap t _ _ (mk d c' x p kvp (mk d 0 y s kvs z)) HR eq_refl) as Hr. rewrite root_mk in Hr. exact Hr. }
      assert (mark (mk d c' x p kvp (mk d 0 y s kvs z)) = c') as -> by by destruct d.
      apply wp_bind. rewrite <- (root_mk d 0 y s kvs z) at 1.
      eapply (rep_node_set cap t _ (F (negb d) c' p kvp x :: ctx')); [exact HR|dirs|]. rewrite setm_mk.
      clear t HR. intros t HR.
      apply wp_bind. rewrite <- (root_mk d c' x p kvp (mk d c' y s kvs z)) at 1.
      eapply (rep_black_set cap t _ ctx'); [exact HR|dirs|]. rewrite setm_mk. clear t HR. intros t HR.
      apply wp_bind.
      eapply wp_gets.
      { eapply (rep_dir_opp t _ (F (negb d) 0 p kvp x :: ctx') d c' y s kvs z); [exact HR|dirs]. }
      apply wp_bind. eapply (rep_black_set cap t _ (F (negb d) c' s kvs y :: F (negb d) 0 p kvp x :: ctx') z); [exact HR|dirs|].
      clear t HR. intros t HR.
      apply wp_bind. eapply (rep_rotate cap t _ ctx' d 0 x p kvp c' y s kvs (setm 0 z)); [exact HR|dirs|].
      clear t HR. intros t HR. apply wp_bind, wp_mget, wp_ret.
      apply wp_bind, wp_mget. unfold rb_is_root at 1. rewrite bool_decide_eq_true_2 by done.
      apply wp_bind, wp_ret. rewrite (rep_root _ _ _ HR).
      eapply (rep_black_set cap t _ []); [exact HR|done|]. clear t HR. simpl. intros t HR.
      assert (rbi (setm 0 z) (S n)) as Hz'. { inversion Hz; subst; simpl in *; try done. by constructor. }
      assert (rbi (mk d 0 x p kvp y) (S n)) as Hl by by apply rbi_mk_black.
      assert (∃ n', rbi (plug ctx' (mk d c' (mk d 0 x p kvp y) s kvs (setm 0 z))) n') as [n' Hn'].
      { destruct Hc as [[-> Hc]|(-> & Hc & f & ctx0 & -> & Hfm)].
        - eapply cx_plug; [by apply rbi_mk_black|exact Hc|]. intros Hne. destruct ctx'; [done|]. intros _. by destruct d.
        - eapply cx_plug; [apply rbi_mk_red; [done|done|by destruct d|apply setm_mark]|exact Hc|].
          intros _ Hfm1. congruence. }
      destruct (rbi_setm_black _ _ Hn') as [n'' Hn'']. eapply HQ; [exact HR|exact Hn''|apply setm_mark|].
      rewrite setm_entries, <- HE, !entries_plug. destruct d; simpl; rewrite ?setm_entries; lassoc.
  Qed.

  (** [_fix_remove]: called on the root of the hole's tree, or with an explicit parent if that tree is empty *)
  Lemma wp_fix_remove t d c p kvp o ctx x n pd (Q : () → rbt → Prop) :
    rep t (plug (F d c p kvp o :: ctx) x) → rbi x n → cx (F d c p kvp o :: ctx) (S n) →
    (pd = Some (p, dN d) ∨ pd = None ∧ x ≠ Lf) →
    (∀ t' U' n', rep t' U' → rbi U' n' → mark U' = 0 → entries U' = entries (plug (F d c p kvp o :: ctx) x) → Q () t') →
    wp (rb_fix_remove (root x) pd) t Q.
  Proof.
    intros HR Hx Hc Hpd HQ. unfold rb_fix_remove.
    assert (∀ fuel', fuel' = rb_fuel t → wp (rb_fix_remove_loop fuel' p (dN d)) t Q) as Hloop.
    { intros ? ->. eapply wp_fix_remove_loop; [done..| |done].
      pose proof (rep_tsize _ _ _ HR) as Hsz. rewrite tsize_plug in Hsz. simpl in Hsz. pose proof (csize_length ctx).
      erewrite R_fuel by exact HR. lia. }
    assert (x = Lf ∨ x ≠ Lf) as [->|Hne] by (destruct x; [by left|by right]).
    - apply wp_bind. eapply wp_gets; [done|]. apply wp_bind. eapply wp_gets; [done|].
      destruct Hpd as [->|[_ ?]]; [|done]. apply wp_bind, wp_mget. by apply Hloop.
    - apply wp_bind. eapply wp_gets; [by eapply (rep_parent cap t _ (F d c p kvp o :: ctx) x)|].
      simpl ctopb. apply wp_bind. eapply wp_gets; [by eapply (rep_child_dir cap t _ d c p kvp o ctx x)|].
      apply wp_bind, wp_mget. destruct Hpd as [->|[-> _]]; by apply Hloop.
  Qed.
End fixup.
