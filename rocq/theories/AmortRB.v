(** * The red-black tree: on average the repair after an insertion or a removal goes round a constant number of times *)
From Verif Require Export AmortModel RBOps.

(** ** The potential: what the shape of the tree has to pay for later rounds
    A black node weighs 1 if its children are black, 2 if both are red and nothing otherwise; a red node weighs nothing. *)
Definition wgt (m a b : N) : nat :=
  match m, a, b with
  | 0, 1, 1 => 2
  | 0, 0, 0 => 1
  | _, _, _ => 0
  end.
Section pot.
  Context {A : Type}.
  Fixpoint pot (s : tree A) : nat :=
    match s with Lf => 0 | Nd m l _ _ r => wgt m (mark l) (mark r) + pot l + pot r end.
  (** of a context around a hole that is marked [h] *)
  Fixpoint cpot (ctx : list (frame A)) (h : N) : nat :=
    match ctx with [] => 0 | F _ m _ _ o :: ctx => wgt m h (mark o) + pot o + cpot ctx m end.
End pot.

Section facts.
  Context {K V : Type}.
  Notation tree := (tree (K * V)).
  Notation frame := (frame (K * V)).
  Implicit Types s x y U : tree.
  Implicit Types ctx : list frame.
  Lemma wgt_comm m a b : wgt m a b = wgt m b a.
  Proof. destruct m as [|[]], a as [|[]], b as [|[]]; done. Qed.
  Lemma wgt_le m a b : (wgt m a b ≤ 2)%nat.
  Proof. destruct m as [|[]], a as [|[]], b as [|[]]; simpl; lia. Qed.
  Lemma pot_mk d m x i kv y : pot (mk d m x i kv y) = (wgt m (mark x) (mark y) + pot x + pot y)%nat.
  Proof. destruct d; simpl; [rewrite wgt_comm|]; lia. Qed.
  Lemma mark_mk d m x i (kv : K * V) y : mark (mk d m x i kv y) = m.
  Proof. by destruct d. Qed.
  Lemma pot_plug ctx s : pot (plug ctx s) = (cpot ctx (mark s) + pot s)%nat.
  Proof.
    revert s. induction ctx as [|[d m i kv o] ctx IH]; intros s; simpl; [done|]. rewrite IH, pot_mk, mark_mk. lia.
  Qed.
  Lemma cpot_app ctx1 ctx2 h : cpot (ctx1 ++ ctx2) h = (cpot ctx1 h + cpot ctx2 (match last ctx1 with Some f => fm f | None => h end))%nat.
  Proof.
    revert h. induction ctx1 as [|[d m i kv o] ctx1 IH]; intros h; simpl; [done|]. rewrite IH.
    destruct ctx1 as [|f ctx1]; [simpl; lia|]. rewrite last_cons_cons. destruct (last (f :: ctx1)) eqn:E; [lia|].
    by apply last_None in E.
  Qed.
  Lemma cpot_le ctx h h' : (cpot ctx h ≤ cpot ctx h' + 2)%nat.
  Proof. destruct ctx as [|[d m i kv o] ctx]; simpl; [lia|]. pose proof (wgt_le m h (mark o)). lia. Qed.
  Lemma pot_setm_black s : mark s = 0 → pot (setm 0 s) = pot s.
  Proof. intros Hm. rewrite <- Hm at 1. by rewrite setm_id. Qed.
  Lemma pot_setm_red s n : rbi s n → mark s = 1 → pot (setm 0 s) = S (pot s).
  Proof. destruct 1; simpl; intros; try done. by rewrite H1, H2. Qed.
  Lemma pot_setm s n : rbi s n → (pot (setm 0 s) ≤ S (pot s))%nat.
  Proof.
    intros Hs. destruct (rbi_mark _ _ Hs) as [Hm|Hm]; [rewrite pot_setm_black by done; lia|by rewrite (pot_setm_red _ _ Hs)].
  Qed.
  Lemma pot_same s s' : same_shape s s' → pot s = pot s'.
  Proof. induction 1 as [|m l l' i kv kv' r r' Hl IHl Hr IHr]; simpl; [done|]. rewrite IHl, IHr, (same_shape_mark _ _ Hl), (same_shape_mark _ _ Hr). done. Qed.
  Lemma pot_tsize s n : rbi s n → (pot s + N.to_nat (mark s) ≤ tsize s)%nat.
  Proof.
    induction 1 as [|l i kv r n Hl IHl Hr IHr Hml Hmr|l i kv r n Hl IHl Hr IHr]; simpl; [lia| |].
    - rewrite Hml, Hmr in *. simpl in *. lia.
    - destruct (rbi_mark _ _ Hl) as [El|El], (rbi_mark _ _ Hr) as [Er|Er]; rewrite El, Er in *; simpl in *; lia.
  Qed.
End facts.

Section fixup.
  Context `{Profile} {K V : Type} {G : Ghost (K * V)} (cap : N).
  Notation tree := (tree (K * V)).
  Notation frame := (frame (K * V)).
  Notation rbt := (rbt K V).
  Notation rep := (rep (K := K) (V := V) cap).
  Implicit Types t : rbt.
  Implicit Types s x y z o U : tree.
  Implicit Types ctx : list frame.

  (** as [wp_fix_insert_loop] of RBFix.v; until the repair is over the red node counts as black *)
  Lemma wpa_fix_insert_loop fuel rem b t ctx i kv x y n (Q : nat → rbt → Prop) :
    rep t (plug ctx (Nd 1 x i kv y)) → rbi (Nd 1 x i kv y) n → cx ctx n → (length ctx < fuel)%nat → 
    (cpot ctx 0 + pot (Nd 1 x i kv y) + 4 + b ≤ rem)%nat →
    (∀ rem' t' U' n', rep t' U' → rbi U' n' → entries U' = entries (plug ctx (Nd 1 x i kv y)) → (pot (setm 0 U') + b ≤ rem')%nat → Q rem' t') →
    wp (rba_fix_insert_loop fuel rem i) t Q.
  Proof.
    revert rem t ctx i kv x y n. induction fuel as [|fuel IH]; intros rem t ctx i kv x y n HR Hs Hc Hf Hrem HQ; [lia|].
    destruct rem as [|rem]; [lia|].
    simpl. apply wp_bind. eapply wp_gets; [exact (rep_parent cap t _ ctx (Nd 1 x i kv y) HR eq_refl ltac:(done))|].
    destruct ctx as [|[d m p kvp o] ctx]; simpl ctopb.
    { apply wp_bind. eapply wp_gets; [done|]. simpl. apply wp_ret. eapply HQ; [done..|]. pose proof (pot_setm _ _ Hs) as Hps. simpl in *. lia. }
    apply wp_bind. eapply wp_gets; [by eapply rep_frame_red|].
    inversion Hc as [|? ? ? ? ? ? Ho Hc'|? ? ? ? f ctx0 ? Ho Hmo Hfm Hc']; subst.
    { rewrite bool_decide_eq_false_2 by done. apply wp_ret.
      destruct (cx_plug _ _ _ Hs Hc) as [n' Hn']; [done|]. eapply HQ; [done..|].
      rewrite pot_setm_black by by eapply (cx_root _ _ _ Hc).
      rewrite pot_plug. pose proof (cpot_le (F d 0 p kvp o :: ctx) (mark (Nd 1 x i kv y)) 0). lia. }
    rewrite bool_decide_eq_true_2 by done. simpl negb. cbv iota.
    apply wp_bind. eapply wp_gets; [by eapply rep_frame_parent|].
    destruct f as [d' m' g kvg u]. simpl in Hfm. subst m'. simpl ctopb.
    apply cx_tail in Hc' as [Hc' Hu]; [|done]. simpl in Hu.
    rewrite decide_False.
    2:{ eapply (rep_frame_nz cap _ _ d' 0 g kvg u ctx0 (mk d 1 (Nd 1 x i kv y) p kvp o)); [exact HR|done]. }
    apply wp_bind. eapply wp_gets; [by eapply rep_frame_child_dir|].
    apply wp_bind. eapply wp_gets.
    { eapply (rep_child_opp cap t _ ctx0 d' 0 (mk d 1 (Nd 1 x i kv y) p kvp o) g kvg u); [exact HR|done]. }
    apply wp_bind. eapply wp_gets.
    { eapply (rep_red cap t _ (F (negb d') 0 g kvg (mk d 1 (Nd 1 x i kv y) p kvp o) :: ctx0) u); [exact HR|dirs]. }
    case_bool_decide as Hmu.
    - (* red uncle *)
      apply wp_bind. eapply (rep_black_set cap t _ (F (negb d') 0 g kvg (mk d 1 (Nd 1 x i kv y) p kvp o) :: ctx0) u);
        [exact HR|dirs|]. clear t HR. intros t HR.
      apply wp_bind. rewrite <- (root_mk d 1 (Nd 1 x i kv y) p kvp o) at 1.
      eapply (rep_black_set cap t _ (F d' 0 g kvg (setm 0 u) :: ctx0) (mk d 1 (Nd 1 x i kv y) p kvp o)); [exact HR|dirs|].
      rewrite setm_mk. clear t HR. intros t HR.
      apply wp_bind. rewrite <- (root_mk d' 0 (mk d 0 (Nd 1 x i kv y) p kvp o) g kvg (setm 0 u)) at 1.
      eapply (rep_red_set cap t _ ctx0); [exact HR|done|]. rewrite setm_mk. clear t HR. intros t HR.
      assert (rbi (mk d' 1 (mk d 0 (Nd 1 x i kv y) p kvp o) g kvg (setm 0 u)) (S n)) as Hr.
      { apply rbi_mk_red.
        - by apply rbi_mk_black.
        - inversion Hu; subst; simpl in *; try done. by constructor.
        - by destruct d.
        - apply setm_mark. }
      assert (∃ x' y', mk d' 1 (mk d 0 (Nd 1 x i kv y) p kvp o) g kvg (setm 0 u) = Nd 1 x' g kvg y') as (x' & y' & He).
      { destruct d'; simpl; eauto. }
      rewrite He in *. eapply IH; [exact HR|exact Hr|done|simpl in *; lia| |].
      { rewrite <- He, !pot_mk, ?mark_mk, (pot_setm_red _ _ Hu Hmu), setm_mark, Hmo. simpl in Hrem |- *. rewrite Hmu in Hrem. lia. }
      intros rem' t' U' n' HR' Hr' Hent Hp. eapply HQ; [done..| |done]. rewrite Hent. simpl. rewrite !entries_plug, <- He.
      destruct d', d; simpl; by rewrite ?setm_entries.
    - (* black uncle *)
      apply wp_bind. eapply wp_gets. { eapply (rep_child_dir cap t _ d 1 p kvp o _ (Nd 1 x i kv y)); [exact HR|done|done]. }
      set (X := Nd 1 x i kv y) in *.
      (* after the first rotation, if any *)
      assert (wp (if decide (dN d = opposite (dN d')) then rb_rotate_dir p (dN d');; mret p else mret i) t
        (λ node t, ∃ q kvq x1 y1 kvn z1,
           rep t (plug ctx0 (mk d' 0 (mk d' 1 (Nd 1 x1 node kvn y1) q kvq z1) g kvg u)) ∧
           rbi (Nd 1 x1 node kvn y1) n ∧ rbi z1 n ∧ mark z1 = 0 ∧ (pot x1 + pot y1 + pot z1 = pot x + pot y + pot o)%nat ∧ mark x1 = 0 ∧ mark y1 = 0 ∧
           entries (mk d' 1 (Nd 1 x1 node kvn y1) q kvq z1) = entries (mk d 1 X p kvp o))) as Hrot.
      { case_decide as Hdd.
        - assert (d = negb d') as -> by by destruct d, d'.
          destruct (mk_dir d' X) as (mx & x1 & i' & kv' & y1 & Hx); [done|].
          assert (mx = 1 ∧ i' = i ∧ (pot x + pot y = pot x1 + pot y1)%nat) as (-> & -> & Hpxy).
          { unfold X in Hx. destruct d'; simpl in Hx; simplify_eq; split_and!; try done; lia. }
          rewrite Hx in *. apply rbi_mk_inv in Hs as [(_ & Hx1 & Hy1 & Hmx & Hmy)|(? & _)]; [|done].
          apply wp_bind. eapply (rep_rotate cap t _ (F d' 0 g kvg u :: ctx0) d' 1 o p kvp 1 x1 i kv' y1); [exact HR|dirs|].
          intros t' HR'. apply wp_ret.
          exists i, kv', (if d' then x1 else o), (if d' then o else x1), kvp, y1. split_and!.
          + destruct d'; exact HR'.
          + destruct d'; by constructor.
          + done.
          + done.
          + destruct d'; lia.
          + by destruct d'.
          + by destruct d'.
          + destruct d'; simpl; rewrite <- !app_assoc; done.
        - assert (d = d') as -> by by destruct d, d'. apply wp_ret.
          inversion Hs; subst.
          exists p, kvp, x, y, kv, o. split_and!; done. }
      apply wp_bind. eapply wp_mono; [exact Hrot|].
      clear t HR Hrot. intros node t (q & kvq & x1 & y1 & kvn & z1 & HR & Hr & Hz & Hmz & Hpo & Hmx1 & Hmy1 & Hent).
      assert (i = i) by done. clear IH.
      apply wp_bind. eapply wp_gets.
      { eapply (rep_parent cap t _ (F d' 1 q kvq z1 :: F d' 0 g kvg u :: ctx0) (Nd 1 x1 node kvn y1)); [exact HR|done|done]. }
      simpl ctopb. apply wp_bind. eapply wp_gets.
      { eapply (rep_frame_parent cap t _ d' 1 q kvq z1 (F d' 0 g kvg u :: ctx0) (Nd 1 x1 node kvn y1)); [exact HR|done]. }
      simpl ctopb. apply wp_bind. rewrite <- (root_mk d' 1 (Nd 1 x1 node kvn y1) q kvq z1) at 1.
      eapply (rep_black_set cap t _ (F d' 0 g kvg u :: ctx0)); [exact HR|done|]. rewrite setm_mk. clear t HR. intros t HR.
      apply wp_bind. rewrite <- (root_mk d' 0 (mk d' 0 (Nd 1 x1 node kvn y1) q kvq z1) g kvg u) at 1.
      eapply (rep_red_set cap t _ ctx0); [exact HR|done|]. rewrite setm_mk. clear t HR. intros t HR.
      apply wp_bind. rewrite opposite_dN.
      eapply (rep_rotate cap t _ ctx0 (negb d') 1 u g kvg 0 z1 q kvq (Nd 1 x1 node kvn y1)); [exact HR|dirs|].
      clear t HR. intros t HR.
      destruct fuel as [|fuel]; [simpl in Hf; lia|]. destruct rem as [|rem]; [lia|]. simpl.
      apply wp_bind. eapply wp_gets.
      { eapply (rep_parent cap t _ (F d' 0 q kvq (mk (negb d') 1 u g kvg z1) :: ctx0) (Nd 1 x1 node kvn y1)); [exact HR|dirs|done]. }
      simpl ctopb. apply wp_bind. eapply wp_gets.
      { eapply (rep_frame_red cap t _ d' 0 q kvq (mk (negb d') 1 u g kvg z1) ctx0 (Nd 1 x1 node kvn y1)); [exact HR|dirs]. }
      simpl. apply wp_ret.
      assert (rbi (mk (negb d') 0 (mk (negb d') 1 u g kvg z1) q kvq (Nd 1 x1 node kvn y1)) (S n)) as Hfin.
      { apply rbi_mk_black; [|done]. apply rbi_mk_red; try done. by destruct (rbi_mark _ _ Hu). }
      destruct (cx_plug _ _ _ Hfin Hc') as [n' Hn'].
      { intros Hne. destruct ctx0; [done|]. intros _. by destruct d'. }
      eapply HQ; [exact HR|exact Hn'| |].
      2:{ assert (mark u = 0) as Hmu0 by by destruct (rbi_mark _ _ Hu).
          rewrite pot_setm_black.
          2:{ destruct ctx0; [apply mark_mk|by eapply (cx_root _ _ _ Hc')]. }
          rewrite pot_plug, !pot_mk, !mark_mk. unfold X in Hrem. simpl in Hrem |- *. rewrite Hmu0 in Hrem. lia. }
      simpl. rewrite !entries_plug. f_equal. f_equal.
      rewrite (entries_mk d' 0 (mk d 1 X p kvp o)), <- Hent. destruct d'; simpl; by rewrite <- !app_assoc.
  Qed.

  (** as [wp_fix_remove_loop] of RBFix.v; the hole counts as black *)
  Lemma wpa_fix_remove_loop fuel rem b t d c p kvp o ctx x n (Q : nat → rbt → Prop) :
    rep t (plug (F d c p kvp o :: ctx) x) → rbi x n → cx (F d c p kvp o :: ctx) (S n) → (length ctx < fuel)%nat → 
    (cpot (F d c p kvp o :: ctx) 0 + pot x + 3 + N.to_nat (mark x) + b ≤ rem)%nat →
    (∀ rem' t' U' n', rep t' U' → rbi U' n' → mark U' = 0 → entries U' = entries (plug (F d c p kvp o :: ctx) x) →
       (pot U' + b ≤ rem')%nat → Q rem' t') →
    wp (rba_fix_remove_loop fuel rem p (dN d)) t Q.
  Proof.
    revert rem t d c p kvp o ctx x n. induction fuel as [|fuel IH]; intros rem t d c p kvp o ctx x n HR Hx Hc Hf Hrem HQ; [lia|].
    destruct rem as [|rem]; [lia|].
    simpl rba_fix_remove_loop.
    apply wp_bind. eapply wp_gets; [eapply (rep_child_opp cap t _ ctx d c x p kvp o); [exact HR|done]|].
    apply wp_bind. eapply wp_gets; [eapply (rep_red cap t _ (F (negb d) c p kvp x :: ctx) o); [exact HR|dirs]|].
    apply cx_frame_inv in Hc as [Ho Hc].
    set (E := entries (plug (F d c p kvp o :: ctx) x)) in *.
    match goal with |- wp (mbind ?k ?m) _ _ => assert (wp m t (λ sib t, ∃ c' ctx' y (s : N) kvs z, sib = s ∧
        (cpot ctx' c' + wgt c' 0 0 + wgt 0 (mark y) (mark z) + pot y + pot z = cpot (F d c p kvp o :: ctx) 0)%nat ∧
        rep t (plug ctx' (mk d c' x p kvp (mk d 0 y s kvs z))) ∧ rbi y n ∧ rbi z n ∧
        (c' = 0 ∧ cx ctx' (S (S n)) ∨ c' = 1 ∧ cx ctx' (S n) ∧ ∃ f ctx0, ctx' = f :: ctx0 ∧ fm f = 0) ∧
        (c' = 0 → ctx' = ctx) ∧
        entries (plug ctx' (mk d c' x p kvp (mk d 0 y s kvs z))) = E)) as HA end.
    { destruct (mk_dir d o) as (mo & y & s & kvs & z & ->); [by eapply rbi_S_ne|].
      assert (mark (mk d mo y s kvs z) = mo) as Hmk by by destruct d. rewrite Hmk in *.
      apply rbi_mk_inv in Ho as [(-> & Hy & Hz & Hmy & Hmz)|(-> & n' & [= <-] & Hy & Hz)].
      - rewrite bool_decide_eq_true_2 by done. destruct Hc as [[-> Hc]|(_ & ? & _)]; [|done].
        apply wp_bind. eapply (rep_black_set cap t _ (F (negb d) 0 p kvp x :: ctx)); [exact HR|dirs|].
        rewrite setm_mk. clear t HR. intros t HR.
        apply wp_bind. rewrite <- (root_mk d 0 x p kvp (mk d 0 y s kvs z)).
        eapply (rep_red_set cap t _ ctx); [exact HR|dirs|]. rewrite setm_mk, root_mk. clear t HR. intros t HR.
        apply wp_bind. eapply (rep_rotate cap t _ ctx d 1 x p kvp 0 y s kvs z); [exact HR|done|]. clear t HR. intros t HR.
        eapply wp_gets; [eapply (rep_dir_opp cap t _ (F d 0 s kvs z :: ctx) d 1 x p kvp y); [exact HR|done]|].
        destruct (mk_dir d y) as (my & y1 & i1 & kv1 & z1 & ->); [by eapply rbi_S_ne|].
        assert (mark (mk d my y1 i1 kv1 z1) = my) as Hmk2 by by destruct d. rewrite Hmk2 in *. subst my.
        apply rbi_mk_inv in Hy as [(? & _)|(_ & n' & [= <-] & Hy1 & Hz1)]; [done|].
        exists 1, (F d 0 s kvs z :: ctx), y1, i1, kv1, z1. rewrite root_mk. split_and!; try done.
        + simpl. rewrite !pot_mk, !mark_mk, Hmz. simpl. lia.
        + right. split_and!; [done| |by eauto]. by constructor.
        + unfold E. simpl. rewrite !entries_plug. destruct d; lassoc.
      - rewrite bool_decide_eq_false_2 by done. apply wp_ret. exists c, ctx, y, s, kvs, z. rewrite root_mk.
        split_and!; try done; [cbn [cpot]; rewrite pot_mk, mark_mk; lia|]. destruct Hc as [?|(? & ? & ? & ?)]; [by left|right; eauto]. }
    apply wp_bind. eapply wp_mono; [exact HA|]. clear t HR HA Hc Ho.
    intros s0 t (c' & ctx' & y & s & kvs & z & Hs0 & Hpo & HR & Hy & Hz & Hc & Hcc & HE).
    subst s0. clearbody E.
    remember (cpot (F d c p kvp o :: ctx) 0) as P eqn:HP in *.
    set (ly := if d then z else y). set (ry := if d then y else z).
    assert (mk d 0 y s kvs z = Nd 0 ly s kvs ry) as Hmk by by destruct d.
    apply wp_bind. eapply wp_gets.
    { eapply (rep_left cap t _ (F (negb d) c' p kvp x :: ctx') 0 ly s kvs ry); [exact HR|unfold ly, ry; dirs]. }
    apply wp_bind. eapply wp_gets.
    { eapply (rep_black cap t _ (F false 0 s kvs ry :: F (negb d) c' p kvp x :: ctx') ly); [exact HR|unfold ly, ry; dirs]. }
    match goal with |- wp (mbind ?k ?m) _ _ =>
      assert (wp m t (λ both t', t' = t ∧ both = bool_decide (mark y = 0 ∧ mark z = 0))) as HB end.
    { case_bool_decide as Hl.
      - apply wp_bind. eapply wp_gets.
        { eapply (rep_right cap t _ (F (negb d) c' p kvp x :: ctx') 0 ly s kvs ry); [exact HR|unfold ly, ry; dirs]. }
        eapply wp_gets.
        { eapply (rep_black cap t _ (F true 0 s kvs ly :: F (negb d) c' p kvp x :: ctx') ry); [exact HR|unfold ly, ry; dirs]. }
        split; [done|]. apply bool_decide_ext. unfold ly, ry in *. destruct d; tauto.
      - apply wp_ret. split; [done|]. symmetry. apply bool_decide_eq_false. unfold ly, ry in *. destruct d; tauto. }
    apply wp_bind. eapply wp_mono; [exact HB|]. clear HB. intros both t' [-> ->].
    case_bool_decide as Hyz.
    - (* both nephews black *)
      destruct Hyz as [Hmy Hmz].
      apply wp_bind, wp_bind. rewrite <- (root_mk d 0 y s kvs z).
      eapply (rep_red_set cap t _ (F (negb d) c' p kvp x :: ctx')); [exact HR|dirs|].
      rewrite setm_mk. clear t HR. intros t HR. apply wp_ret.
      set (o' := mk d 1 y s kvs z).
      assert (rbi o' n) as Ho' by by apply rbi_mk_red.
      assert (rep t (plug ctx' (mk d c' x p kvp o'))) as HR'. { unfold o'. destruct d; exact HR. } clear HR.
      assert (entries (plug ctx' (mk d c' x p kvp o')) = E) as HE'.
      { rewrite <- HE, !entries_plug. unfold o'. by destruct d. }
      assert (rbi (mk d 0 x p kvp o') (S n)) as Hm0 by by apply rbi_mk_black.
      apply wp_bind, wp_mget.
      pose proof (rep_is_root cap t _ ctx' (mk d c' x p kvp o') HR' eq_refl ltac:(by destruct d)) as Hir.
      rewrite root_mk in Hir. rewrite Hir. clear Hir.
      assert ((c' = 1 ∨ ctx' = []) → wp (rb_color_black p;; mret rem) t Q) as Hstop.
      { intros Hcase. apply wp_bind. rewrite <- (root_mk d c' x p kvp o'). eapply (rep_black_set cap t _ ctx'); [exact HR'|done|].
        rewrite setm_mk. clear t HR'. intros t HR'. apply wp_ret.
        assert (entries (plug ctx' (mk d 0 x p kvp o')) = E) as HE0.
        { rewrite <- HE', !entries_plug. by destruct d. }
        destruct ctx' as [|f ctx'].
        - eapply HQ; [exact HR'|exact Hm0|by destruct d|done|].
          cbn [plug]. unfold o'. rewrite !pot_mk, !mark_mk. pose proof (wgt_le 0 (mark x) 1). rewrite Hmy, Hmz in *. simpl in *. lia.
        - destruct Hcase as [->|?]; [|done].
          destruct Hc as [[? _]|(_ & Hc & f' & ctx0 & [= <- <-] & Hfm)]; [done|].
          destruct (cx_plug _ _ _ Hm0 Hc) as [n' Hn']. { intros _ Hfm1. congruence. }
          eapply HQ; [exact HR'|exact Hn'|by eapply cx_root|done|].
          rewrite pot_plug, mark_mk. unfold o'. rewrite !pot_mk, !mark_mk. pose proof (cpot_le (f :: ctx') 0 1).
          rewrite Hmy, Hmz in *. destruct (rbi_mark _ _ Hx) as [Hmx|Hmx]; rewrite Hmx in *; cbn [wgt] in *; lia. }
      destruct ctx' as [|[df mf pf kvf of] ctx'].
      + apply wp_bind, wp_ret. apply Hstop; by right.
      + apply wp_bind. eapply wp_gets.
        { pose proof (rep_red cap t _ _ (mk d c' x p kvp o') HR' eq_refl) as Hr. rewrite root_mk in Hr. exact Hr. }
        assert (mark (mk d c' x p kvp o') = c') as -> by by destruct d.
        case_bool_decide as Hc1; [apply Hstop; by left|].
        destruct Hc as [[-> Hc]|(-> & _)]; [|done]. specialize (Hcc eq_refl). subst ctx.
        apply wp_bind. eapply wp_gets.
        { pose proof (rep_parent cap t _ _ (mk d 0 x p kvp o') HR' eq_refl) as Hr. rewrite root_mk in Hr.
          apply Hr. by destruct d. }
        simpl ctopb. apply wp_bind. eapply wp_gets.
        { pose proof (rep_child_dir cap t _ df mf pf kvf of ctx' (mk d 0 x p kvp o') HR' eq_refl) as Hr. rewrite root_mk in Hr.
          apply Hr. by destruct d. }
        eapply IH; [exact HR'|exact Hm0|exact Hc|simpl in Hf; lia| |].
        { unfold o'. rewrite !pot_mk, !mark_mk, Hmy, Hmz in *. destruct (rbi_mark _ _ Hx) as [Hmx|Hmx]; rewrite Hmx in *; cbn [wgt] in *; lia. }
        intros rem' t' U' n' HR1 Hr1 Hm1 He1 Hp1. eapply HQ; [done..| |done]. by rewrite He1, HE'.
    - (* a red nephew *)
      clear IH. apply wp_bind, wp_bind.

      eapply wp_gets.
      { eapply (rep_dir_opp cap t _ (F (negb d) c' p kvp x :: ctx') d 0 y s kvs z); [exact HR|dirs]. }
      apply wp_bind. eapply wp_gets.
      { eapply (rep_black cap t _ (F (negb d) 0 s kvs y :: F (negb d) c' p kvp x :: ctx') z); [exact HR|dirs]. }
      match goal with |- wp (mbind ?k ?m) _ _ => assert (wp m t (λ sib t, ∃ y (s : N) kvs z, sib = s ∧ (cpot ctx' c' + wgt c' 0 0 + wgt 0 (mark y) (mark z) + pot y + pot z = P)%nat ∧
        rep t (plug ctx' (mk d c' x p kvp (mk d 0 y s kvs z))) ∧ rbi y n ∧ rbi z n ∧ mark z = 1 ∧
        entries (plug ctx' (mk d c' x p kvp (mk d 0 y s kvs z))) = E)) as HA end.
      { case_bool_decide as Hmz.
        - assert (mark y = 1) as Hmy. { destruct (rbi_mark _ _ Hy); [|done]. exfalso. by apply Hyz. }
          destruct (mk_dir d y) as (my & y1 & w & kvw & y2 & ->); [by apply mark_ne|].
          assert (mark (mk d my y1 w kvw y2) = my) as Hmk2 by by destruct d. rewrite Hmk2 in *. subst my.
          apply rbi_mk_inv in Hy as [(_ & Hy1 & Hy2 & Hmy1 & Hmy2)|(? & _)]; [|done].
          apply wp_bind. eapply wp_gets.
          { eapply (rep_dir cap t _ (F (negb d) c' p kvp x :: ctx') d 0 _ s kvs z); [exact HR|dirs]. }
          apply wp_bind. eapply (rep_black_set cap t _ (F d 0 s kvs z :: F (negb d) c' p kvp x :: ctx')); [exact HR|dirs|].
          rewrite setm_mk. clear t HR. intros t HR.
          apply wp_bind. rewrite <- (root_mk d 0 (mk d 0 y1 w kvw y2) s kvs z).
          eapply (rep_red_set cap t _ (F (negb d) c' p kvp x :: ctx')); [exact HR|dirs|].
          rewrite setm_mk, root_mk. clear t HR. intros t HR.
          apply wp_bind. rewrite opposite_dN.
          eapply (rep_rotate cap t _ (F (negb d) c' p kvp x :: ctx') (negb d) 1 z s kvs 0 y2 w kvw y1); [exact HR|dirs|].
          clear t HR. intros t HR.

          rewrite <- opposite_dN. eapply wp_gets.
          { eapply (rep_dir_opp cap t _ ctx' d c' x p kvp (mk d 0 y1 w kvw (mk d 1 y2 s kvs z))); [exact HR|dirs]. }
          exists y1, w, kvw, (mk d 1 y2 s kvs z). rewrite root_mk. split_and!; try done.
          + rewrite !pot_mk, !mark_mk, Hmy1 in *. rewrite Hmz in Hpo. cbn [wgt] in *. lia.
          + destruct d; exact HR.
          + by apply rbi_mk_red.
          + by destruct d.
          + rewrite <- HE, !entries_plug. destruct d; lassoc.
        - apply wp_ret. exists y, s, kvs, z. split_and!; try done.
          destruct (rbi_mark _ _ Hz); done. }
      apply wp_bind. eapply wp_mono; [exact HA|]. clear t HR HA HE Hpo y s kvs z Hy Hz Hyz ly ry Hmk.
      intros s0 t (y & s & kvs & z & Hs0 & Hpo & HR & Hy & Hz & Hmz & HE). subst s0.
      apply wp_bind. eapply wp_gets.
      { pose proof (rep_color cap t _ _ (mk d c' x p kvp (mk d 0 y s kvs z)) HR eq_refl) as Hr. rewrite root_mk in Hr. exact Hr. }
      assert (mark (mk d c' x p kvp (mk d 0 y s kvs z)) = c') as -> by by destruct d.
      apply wp_bind. rewrite <- (root_mk d 0 y s kvs z) at 1.
      eapply (rep_node_set cap t _ (F (negb d) c' p kvp x :: ctx')); [exact HR|dirs|]. rewrite setm_mk.
      clear t HR. intros t HR.
      apply wp_bind. rewrite <- (root_mk d c' x p kvp (mk d c' y s kvs z)) at 1.
      eapply (rep_black_set cap t _ ctx'); [exact HR|dirs|]. rewrite setm_mk. clear t HR. intros t HR.
      apply wp_bind.
      eapply wp_gets.
      { eapply (rep_dir_opp cap t _ (F (negb d) 0 p kvp x :: ctx') d c' y s kvs z); [exact HR|dirs]. }
      apply wp_bind. eapply (rep_black_set cap t _ (F (negb d) c' s kvs y :: F (negb d) 0 p kvp x :: ctx') z); [exact HR|dirs|].
      clear t HR. intros t HR.
      apply wp_bind. eapply (rep_rotate cap t _ ctx' d 0 x p kvp c' y s kvs (setm 0 z)); [exact HR|dirs|].
      clear t HR. intros t HR. apply wp_bind, wp_mget, wp_ret.
      apply wp_bind, wp_mget. unfold rb_is_root at 1. rewrite bool_decide_eq_true_2 by done.
      apply wp_bind, wp_ret. rewrite (rep_root _ _ _ HR). apply wp_bind.
      eapply (rep_black_set cap t _ []); [exact HR|done|]. clear t HR. simpl. intros t HR. apply wp_ret.
      assert (rbi (setm 0 z) (S n)) as Hz'. { inversion Hz; subst; simpl in *; try done. by constructor. }
      assert (rbi (mk d 0 x p kvp y) (S n)) as Hl by by apply rbi_mk_black.
      assert (∃ n', rbi (plug ctx' (mk d c' (mk d 0 x p kvp y) s kvs (setm 0 z))) n') as [n' Hn'].
      { destruct Hc as [[-> Hc]|(-> & Hc & f & ctx0 & -> & Hfm)].
        - eapply cx_plug; [by apply rbi_mk_black|exact Hc|]. intros Hne. destruct ctx'; [done|]. intros _. by destruct d.
        - eapply cx_plug; [apply rbi_mk_red; [done|done|by destruct d|apply setm_mark]|exact Hc|].
          intros _ Hfm1. congruence. }
      destruct (rbi_setm_black _ _ Hn') as [n'' Hn'']. eapply HQ; [exact HR|exact Hn''|apply setm_mark| |].
      2:{ rewrite pot_setm_black.
          2:{ destruct ctx' as [|f0 ctx']; [|by destruct Hc as [[-> Hc]|(-> & Hc & _)]; eapply (cx_root _ _ _ Hc)].
              destruct Hc as [[-> _]|(_ & _ & f & ctx0 & ? & _)]; [apply mark_mk|done]. }
          rewrite pot_plug, !pot_mk, !mark_mk, (pot_setm_red _ _ Hz Hmz), setm_mark. rewrite Hmz in Hpo.
          destruct (rbi_mark _ _ Hx) as [Hmx|Hmx], (rbi_mark _ _ Hy) as [Hmy|Hmy]; rewrite Hmx, Hmy in *; cbn [wgt] in *; lia. }
      rewrite setm_entries, <- HE, !entries_plug. destruct d; simpl; rewrite ?setm_entries; lassoc.
  Qed.
End fixup.

Section ops.
  Context `{Profile} {K V : Type} (cmp : K → K → comparison) (HO : OrdLaws cmp) (cap : N) (b : nat).
  Notation tree := (tree (K * V)).
  Notation frame := (frame (K * V)).
  Notation rbt := (rbt K V).
  Notation rep := (rep (K := K) (V := V) cap).
  Notation R := (R (K := K) (V := V) cap).
  Notation rbok := (rbok cmp cap).
  Notation cells := (cells rgrb).
  Notation ccellsb := (ccellsb rgrb).
  Notation ccells := (ccellsb 0).
  Implicit Types t : rbt.
  Implicit Types s x y z U : tree.
  Implicit Types ctx : list frame.

  Lemma wpa_fix_insert rem t ctx i kv x y n (Q : nat → rbt → Prop) :
    rep t (plug ctx (Nd 1 x i kv y)) → rbi (Nd 1 x i kv y) n → cx ctx n → (cpot ctx 0 + pot (Nd 1 x i kv y) + 4 + b ≤ rem)%nat →
    (∀ rem' t' U' n', rep t' U' → rbi U' n' → mark U' = 0 → entries U' = entries (plug ctx (Nd 1 x i kv y)) → (pot U' + b ≤ rem')%nat → Q rem' t') →
    wp (rba_fix_insert rem i) t Q.
  Proof.
    intros HR Hs Hc Hln HQ. unfold rba_fix_insert. apply wp_bind, wp_mget, wp_bind.
    eapply (wpa_fix_insert_loop cap); [exact HR|exact Hs|exact Hc| |exact Hln|].
    { pose proof (rep_tsize _ _ _ HR) as Hsz. rewrite tsize_plug in Hsz. pose proof (csize_length ctx).
      erewrite R_fuel by exact HR. lia. }
    intros rem' t' U' n' HR' Hr' Hent Hp. apply wp_bind, wp_mget. rewrite (rep_root _ _ _ HR'). apply wp_bind.
    eapply (rep_black_set cap t' _ [] U'); [done..|]. simpl. intros t'' HR''. apply wp_ret.
    destruct (rbi_setm_black _ _ Hr') as [n'' Hn'']. eapply HQ; [exact HR''|exact Hn''|apply setm_mark| |exact Hp].
    by rewrite setm_entries.
  Qed.
  Lemma wpa_fix_remove rem t d c p kvp o ctx x n pd (Q : nat → rbt → Prop) :
    rep t (plug (F d c p kvp o :: ctx) x) → rbi x n → cx (F d c p kvp o :: ctx) (S n) →
    (cpot (F d c p kvp o :: ctx) 0 + pot x + 4 + b ≤ rem)%nat →
    (pd = Some (p, dN d) ∨ pd = None ∧ x ≠ Lf) →
    (∀ rem' t' U' n', rep t' U' → rbi U' n' → mark U' = 0 → entries U' = entries (plug (F d c p kvp o :: ctx) x) →
       (pot U' + b ≤ rem')%nat → Q rem' t') →
    wp (rba_fix_remove rem (root x) pd) t Q.
  Proof.
    intros HR Hx Hc Hln Hpd HQ. unfold rba_fix_remove.
    assert (∀ fuel', fuel' = rb_fuel t → wp (rba_fix_remove_loop fuel' rem p (dN d)) t Q) as Hloop.
    { intros ? ->. eapply (wpa_fix_remove_loop cap _ _ b); [exact HR|exact Hx|exact Hc| | |exact HQ].
      2:{ destruct (rbi_mark _ _ Hx) as [->| ->]; lia. }
      pose proof (rep_tsize _ _ _ HR) as Hsz. rewrite tsize_plug in Hsz. simpl in Hsz. pose proof (csize_length ctx).
      erewrite R_fuel by exact HR. lia. }
    assert (x = Lf ∨ x ≠ Lf) as [->|Hne] by (destruct x; [by left|by right]).
    - apply wp_bind. eapply wp_gets; [done|]. apply wp_bind. eapply wp_gets; [done|].
      destruct Hpd as [->|[_ ?]]; [|done]. apply wp_bind, wp_mget. by apply Hloop.
    - apply wp_bind. eapply wp_gets; [by eapply (rep_parent cap t _ (F d c p kvp o :: ctx) x)|].
      simpl ctopb. apply wp_bind. eapply wp_gets; [by eapply (rep_child_dir cap t _ d c p kvp o ctx x)|].
      apply wp_bind, wp_mget. destruct Hpd as [->|[-> _]]; by apply Hloop.
  Qed.
  Lemma wpa_insert_loop fuel rem t ctx m l i kv r k v (Q : option N * nat → rbt → Prop) :
    rbok t (plug ctx (Nd m l i kv r)) → onpath cmp k ctx → (height (Nd m l i kv r) ≤ fuel)%nat →
    (pot (plug ctx (Nd m l i kv r)) + 4 + b ≤ rem)%nat →
    (∀ o rem' t' U', rbok t' U' → ins_rel cmp cap k v (entries (plug ctx (Nd m l i kv r))) o (entries U') →
       (pot U' + b ≤ rem')%nat → Q (o, rem') t') →
    wp (rba_insert_loop cmp fuel rem k v i) t Q.
  Proof using HO.
    revert ctx m l i kv r. induction fuel as [|fuel IH]; intros ctx m l i kv r Hok Hp Hh Hln HQ; [simpl in Hh; lia|].
    pose proof Hok as [HR Hbal Hasc]. simpl rba_insert_loop. apply wp_bind. eapply wp_gets; [by eapply rep_node|].
    set (U := plug ctx (Nd m l i kv r)) in *.
    (* the new leaf *)
    assert (∀ d (o : tree), U = plug (F d m i kv o :: ctx) Lf → onpath cmp k (F d m i kv o :: ctx) →
      wp (t ← mget;
            if decide (rb_capacity t ≤ rb_len t) then mret (None, rem)
            else
              node_index ← rb_on (na_add_node (k, v));
              rb_color_red node_index;;
              rb_connect i node_index (dN d);;
              grandparent ← gets (λ t, rb_get_parent t i);
              rem ← (if decide (grandparent ≠ SENTINEL) then rba_fix_insert rem node_index else mret rem);
              mret (Some node_index, rem)) t Q) as Hnew.
    { clear IH. intros d o HU Hp'. rewrite HU in *. clear U HU. apply wp_bind, wp_mget.
      rewrite (rep_cap cap _ _ HR), (rep_len cap _ _ HR). pose proof (rep_len_le cap _ _ HR) as Hle.
      set (f := F d m i kv o) in *.
      assert (entries (plug (f :: ctx) Lf) = cbef (f :: ctx) ++ caft (f :: ctx)) as HE by exact (entries_plug (f :: ctx) Lf).
      destruct Hp' as [Hb Ha].
      case_decide as Hfull.
      - apply wp_ret. eapply (HQ None rem t); [exact Hok| |lia]. eapply ins_full; [exact HE|lia|done|done].
      - apply wp_bind, R_on. destruct HR as [Hc Hr]. eapply CH_add_node; [exact _|exact Hc|rewrite cells_length; lia|].
        intros i' a' Hc'.
        assert (R (set_ral a' t) ((i', Node (replicate 4 0) (k, v)) :: cells 0 (plug (f :: ctx) Lf)) (root (plug (f :: ctx) Lf)))
          as HR' by done.
        assert (i' ∉ (entries (plug (f :: ctx) Lf)).*1) as Hfresh.
        { apply CH_NoDup in Hc'. simpl in Hc'. apply NoDup_cons in Hc' as [Hc' _]. by rewrite <- (cells_addrs rgrb 0). }
        assert (i' ≠ 0) as Hnz by (eapply CH_nz; [exact Hc'|apply elem_of_list_here]).
        assert (i' ≤ cap) as Hicap by (eapply CH_le; [exact Hc'|apply elem_of_list_here]).
        clear Hc Hr. revert HR'. generalize (set_ral a' t). clear a' Hc'. intros t1 HR1.
        assert (∀ rem' t' U', rep t' U' → balanced U' → entries U' = entries (plug (f :: ctx) (Nd 1 Lf i' (k, v) Lf)) →
          (pot U' + b ≤ rem')%nat → Q (Some i', rem') t') as Hfin.
        { intros rem' t' U' HR' Hb' He' Hp'. rewrite entries_plug in He'. simpl in He'. eapply (HQ _ _ _ U'); [split; [done|done|]| |done].
          - rewrite He', fmap_app, fmap_cons. apply ascending_insert; [done| |done|done].
            by rewrite HE, fmap_app in Hasc.
          - rewrite He'. eapply ins_new; [exact HE|lia|done|done|done|done|done]. }
        assert (wp (rb_color_red i' ;; rb_connect i i' (dN d)) t1 (λ _ t', rep t' (plug (f :: ctx) (Nd 1 Lf i' (k, v) Lf)))) as Hat.
        { eapply wp_attach; [exact HR1|]. done. }
        apply wp_elim in Hat as ([] & t2 & He2 & HR2). unfold mbind, M_bind in He2.
        apply wp_bind. unfold wp. destruct (rb_color_red i' t1) as [u1 t1'|e t1'] eqn:E1; [|done].
        apply wp_bind. unfold wp. rewrite He2.
        apply wp_bind. eapply wp_gets; [by eapply (rep_frame_parent cap t2 _ d m i kv o ctx)|].
        destruct Hbal as [Hm [n Hn]]. destruct (cx_unplug _ _ _ Hn Hm) as (n' & HLf & Hcx & Hcp).
        inversion HLf; subst n'.
        assert (rbi (Nd 1 Lf i' (k, v) Lf) 0) as Hrbi by (constructor; constructor || done).
        apply wp_bind. case_decide as Hg.
        + eapply wpa_fix_insert; [exact HR2|exact Hrbi|exact Hcx|rewrite pot_plug in Hln; simpl in *; lia|].
          intros rem' t' U' n' HR' Hr' Hm' He' Hp'. apply wp_ret. apply (Hfin rem' t' U' HR'); [split; eauto|done|done].
        + apply wp_ret, wp_ret. apply (Hfin rem t2 _ HR2); [|done|].
          2:{ rewrite pot_plug in Hln |- *. pose proof (cpot_le (f :: ctx) (mark (Nd 1 Lf i' (k, v) Lf)) (mark (@Lf (K * V)))). simpl in *. lia. }
          destruct ctx as [|f' ctx].
          * split; [by eapply cx_root|]. eapply cx_plug; [exact Hrbi|exact Hcx|].
            intros _ Hfm. exfalso. unfold f in *. simpl in Hfm. subst m. inversion Hcx.
          * exfalso. revert Hg. simpl. destruct f' as [d' m' g kvg o'].
            exact (rep_frame_nz cap t2 _ d' m' g kvg o' ctx (mk d m (Nd 1 Lf i' (k, v) Lf) i kv o) HR2 eq_refl). }
    destruct (cmp k kv.1) eqn:Ek.
    - apply wp_bind. eapply rep_set_value; [exact HR|]. intros t' HR'. apply wp_ret.
      eapply HQ; [by eapply rbok_set_value| |].
      2:{ rewrite <- (pot_same _ _ (same_plug ctx m l i kv (kv.1, v) r)). unfold U in *. lia. }
      destruct (onpath_found cmp HO _ _ _ _ _ _ _ Hasc Ek) as [Hb Ha].
      unfold U. rewrite !entries_plug. simpl. rewrite <- !app_assoc. simpl.
      rewrite !(app_assoc (cbef ctx)). eapply ins_present; [done|done|by rewrite fmap_app|by rewrite fmap_app].
    - apply wp_bind. eapply wp_gets; [by eapply rep_left|]. destruct l as [|ml ll il kvl rl].
      + rewrite decide_True by done. apply (Hnew false r); [done|]. by eapply onpath_left.
      + rewrite decide_False by (eapply (rep_nz cap t _ (F false m i kv r :: ctx)); [exact HR|done]).
        eapply (IH (F false m i kv r :: ctx)); [exact Hok|by eapply onpath_left|simpl in *; lia|exact Hln|exact HQ].
    - apply wp_bind. eapply wp_gets; [by eapply rep_right|]. destruct r as [|mr lr ir kvr rr].
      + rewrite decide_True by done. apply (Hnew true l); [done|]. by eapply onpath_right.
      + rewrite decide_False by (eapply (rep_nz cap t _ (F true m i kv l :: ctx)); [exact HR|done]).
        eapply (IH (F true m i kv l :: ctx)); [exact Hok|by eapply onpath_right|simpl in *; lia|exact Hln|exact HQ].
  Qed.
  Lemma wpa_insert rem t U k v (Q : option N * nat → rbt → Prop) :
    rbok t U → 0 < cap → (pot U + 4 + b ≤ rem)%nat →
    (∀ o rem' t' U', rbok t' U' → ins_rel cmp cap k v (entries U) o (entries U') → (pot U' + b ≤ rem')%nat → Q (o, rem') t') →
    wp (rba_insert cmp rem k v) t Q.
  Proof using HO.
    intros Hok Hcap Hln HQ. pose proof Hok as [HR Hbal Hasc]. unfold rba_insert. apply wp_bind, wp_mget.
    rewrite (rep_root _ _ _ HR). destruct U as [|m l i kv r].
    - rewrite decide_True by done. apply wp_bind, R_on. destruct HR as [Hc Hr].
      eapply CH_add_node; [exact _|exact Hc|done|]. intros i a' Hc'. apply wp_bind, wp_modify, wp_ret.
      eapply (HQ _ _ _ (Nd 0 Lf i (k, v) Lf)); [| |simpl in *; lia].
      + split.
        * split; [|done]. exact Hc'.
        * split; [done|]. exists 1%nat. by repeat constructor.
        * repeat constructor.
      + simpl. eapply (ins_new cmp cap k v [] [] []); [done|done|constructor|constructor|set_solver| |].
        * eapply CH_nz; [exact Hc'|apply elem_of_list_here].
        * eapply CH_le; [exact Hc'|apply elem_of_list_here].
    - rewrite decide_False by (eapply (rep_nz cap t _ []); [exact HR|done]).
      eapply (wpa_insert_loop _ _ t [] m l i kv r); [exact Hok|apply onpath_nil| |exact Hln|exact HQ].
      pose proof (rep_tsize _ _ _ HR). pose proof (height_tsize (Nd m l i kv r)).
      erewrite R_fuel by exact HR. lia.
  Qed.
  Lemma wpa_fix_phase rem t full x n mc pd (Q : nat → rbt → Prop) :
    rep t (plug full x) → rbi x n → hole_ok full x n mc → pd_ok full x pd →
    (cpot full 0 + pot x + (if decide (mc = 0%N) then 4 else 0) + b ≤ rem)%nat →
    (∀ rem' t' U', rep t' U' → balanced U' → entries U' = entries (plug full x) → (pot U' + b ≤ rem')%nat → Q rem' t') →
    wp (if bool_decide (mc = 0) then
          t ← mget; if rb_is_root t (root x) then rb_color_black (root x);; mret rem else rba_fix_remove rem (root x) pd
        else mret rem) t Q.
  Proof using Type.
    clear HO. intros HR Hx Hh Hpd Hln HQ. destruct Hh as [[-> Hcx]|(-> & Hcx & Hne & Hm)].
    - rewrite bool_decide_true by done. apply wp_bind, wp_mget. destruct full as [|[d c p kvp o] full].
      + replace (rb_is_root t (root x)) with true.
        2:{ symmetry. apply bool_decide_eq_true. apply (rep_root _ _ _ HR). }
        apply wp_bind. eapply (rep_black_set cap t _ []); [exact HR|done|]. intros t' HR'. simpl in HR'. apply wp_ret.
        eapply HQ; [exact HR'|split; [apply setm_mark|by eapply rbi_setm_black]|apply setm_entries|].
        pose proof (pot_setm _ _ Hx). simpl in *. lia.
      + replace (rb_is_root t (root x)) with false.
        2:{ symmetry. apply bool_decide_eq_false. destruct x as [|mx xl xi xkv xr].
            - rewrite (rep_root _ _ _ HR). eapply (rep_nz' cap t _ []); [exact HR|done|].
              intros [? _]%plug_Lf. done.
            - by eapply (rep_root_inner cap t _ _ _ HR). }
        eapply wpa_fix_remove; [exact HR|exact Hx|exact Hcx|exact Hln|exact Hpd|].
        intros rem' t' U' n' HR' Hb' Hm' He' Hp'. eapply HQ; [exact HR'|split; eauto|done|done].
    - rewrite bool_decide_false by done. apply wp_ret. eapply HQ; [exact HR| |done|].
      2:{ rewrite pot_plug, Hm. simpl in Hln. lia. }
      split; [by eapply cx_root|]. eapply cx_plug; [exact Hx|exact Hcx|]. intros _. destruct full; naive_solver.
  Qed.
  Ltac spot := rewrite pot_plug in *; match goal with |- context [cpot ?c 0] => pose proof (cpot_le c 0 1) | _ => idtac end; simpl in *; lia.
  Lemma wpa_remove_tree_node rem t ctx m (l : tree) i kv (r : tree) (Q : nat → rbt → Prop) :
    rep t (plug ctx (Nd m l i kv r)) → balanced (plug ctx (Nd m l i kv r)) →
    (pot (plug ctx (Nd m l i kv r)) + 4 + b ≤ rem)%nat →
    (∀ rem' t' U', rep t' U' → balanced U' → entries U' = cbef ctx ++ entries l ++ entries r ++ caft ctx → (pot U' + b ≤ rem')%nat → Q rem' t') →
    wp (rba_remove_tree_node rem i) t Q.
  Proof using Type.
    clear HO. intros HR [Hm0 [n0 Hn0]] Hln HQ. destruct (cx_unplug _ _ _ Hn0 Hm0) as (n & Hnd & Hcx & Hcp). clear n0 Hn0.
    assert (i ≠ 0) as Hi by (eapply (rep_nz cap t _ ctx); [exact HR|done]).
    unfold rba_remove_tree_node.
    apply wp_bind. eapply wp_gets; [exact (rep_black cap t _ ctx (Nd m l i kv r) HR eq_refl)|].
    apply wp_bind. eapply wp_gets; [exact (rep_left cap t _ ctx _ _ _ _ _ HR eq_refl)|].
    apply wp_bind. eapply wp_gets; [exact (rep_right cap t _ ctx _ _ _ _ _ HR eq_refl)|].
    apply wp_bind. eapply wp_gets; [by apply (rep_is_leaf cap t ctx _ _ _ _ _ HR)|].
    simpl mark.
    (* the rest, after the structural change *)
    assert (∀ t1 full x n1 mc pd a a' p c, (cpot full 0 + pot x + (if decide (mc = 0%N) then 4 else 0) + b ≤ rem)%nat → R t1 ((i, Node [a; a'; p; c] kv) :: cells 0 (plug full x)) (root (plug full x)) →
      rbi x n1 → hole_ok full x n1 mc → pd_ok full x pd →
      entries (plug full x) = cbef ctx ++ entries l ++ entries r ++ caft ctx →
      wp (let '(pivot, parent_and_dir, is_black) := (root x, pd, bool_decide (mc = 0)) in
          rb_remove_allocator_node i;;
          if (is_black : bool) then
            t ← mget;
            if rb_is_root t pivot then rb_color_black pivot;; mret rem
            else rba_fix_remove rem pivot parent_and_dir
          else mret rem) t1 Q) as Hrest.
    { intros t1 full x n1 mc pd a a' p c Hlf HR1 Hx Hh Hpd He. apply wp_bind.
      eapply wp_remove_allocator_node; [exact HR1|]. intros t2 HR2.
      eapply wpa_fix_phase; [exact HR2|exact Hx|exact Hh|exact Hpd|exact Hlf|].
      intros rem' t' U' HR' Hb' He' Hp'. eapply HQ; [exact HR'|exact Hb'| |done]. by rewrite He', He. }
    apply wp_bind. destruct l as [|ml ll il kvl rl], r as [|mr lr ir kvr rr].
    - (* a leaf *)
      apply wp_bind, wp_mget. pose proof (rep_is_root cap t _ ctx (Nd m Lf i kv Lf) HR eq_refl) as Hroot. simpl in Hroot.
      rewrite Hroot by done. clear Hroot. destruct ctx as [|[d c p kvp o] ctx].
      + simpl. apply wp_bind, wp_modify, wp_ret. simpl in HR. destruct HR as [Hc Hr]. simpl in Hcp. subst m.
        eapply (Hrest (set_rroot SENTINEL t) [] Lf 0%nat 0); [spot| split; [exact Hc|done]|constructor|left; split; [done|constructor]|done|done].
      + simpl negb. cbv iota. apply wp_bind. eapply wp_gets; [by apply (rep_parent cap t _ (F d c p kvp o :: ctx) (Nd m Lf i kv Lf) HR eq_refl)|].
        apply wp_bind. eapply wp_gets; [by apply (rep_child_dir cap t _ d c p kvp o ctx (Nd m Lf i kv Lf) HR eq_refl)|].
        apply wp_bind, rb_connect_set, wp_bind. apply rep_focus in HR.
        eapply (R_rehole cap t (cells p (Nd m Lf i kv Lf)) _ 0 d c p kvp o ctx i 0); [eapply R_perm; [exact HR|apply Permutation_app_comm]|].
        clear t HR. intros t HR. apply R_set0, wp_ret.
        inversion Hnd; subst.
        * eapply (Hrest t (F d c p kvp o :: ctx) Lf _ 1); [spot| |done|right; split_and!; done|by left|by rewrite entries_plug].
          eapply R_perm; [rewrite root_plug; exact HR|]. rewrite cells_plug. apply (Permutation_app_comm _ [_]).
        * eapply (Hrest t (F d c p kvp o :: ctx) Lf _ 0); [spot| |done|left; split_and!; done|by left|by rewrite entries_plug].
          eapply R_perm; [rewrite root_plug; exact HR|]. rewrite cells_plug. apply (Permutation_app_comm _ [_]).
    - (* only a right child *)
      rewrite decide_True by done. apply wp_bind.
      eapply (wp_one cap t ctx true m (Nd mr lr ir kvr rr) i kv); [exact HR|done|]. clear t HR. intros t HR. apply wp_ret.
      destruct (rbi_mk_inv true _ _ _ _ _ _ Hnd) as [(-> & Hx & _ & Hmx & _)|(-> & n' & -> & Hx & _)].
      + eapply (Hrest t ctx (Nd mr lr ir kvr rr) _ 1); [spot| exact HR|exact Hx|right; split_and!; [done|done|by intros ->|done]| |by rewrite entries_plug; simpl].
        destruct ctx as [|[]]; [done|by right].
      + eapply (Hrest t ctx (Nd mr lr ir kvr rr) _ 0); [spot| exact HR|exact Hx|left; split_and!; done| |by rewrite entries_plug; simpl].
        destruct ctx as [|[]]; [done|by right].
    - (* only a left child *)
      assert (root (Nd ml ll il kvl rl) ≠ 0) as Hl0 by (eapply (rep_nz' cap t _ (F false m i kv Lf :: ctx)); [exact HR|done|done]).
      rewrite decide_False by exact Hl0. rewrite decide_True by done. apply wp_bind.
      eapply (wp_one cap t ctx false m (Nd ml ll il kvl rl) i kv); [exact HR|done|]. clear t HR. intros t HR. apply wp_ret.
      destruct (rbi_mk_inv false _ _ _ _ _ _ Hnd) as [(-> & Hx & _ & Hmx & _)|(-> & n' & -> & Hx & _)].
      + eapply (Hrest t ctx (Nd ml ll il kvl rl) _ 1); [spot| exact HR|exact Hx|right; split_and!; [done|done|by intros ->|done]| |by rewrite entries_plug; simpl].
        destruct ctx as [|[]]; [done|by right].
      + eapply (Hrest t ctx (Nd ml ll il kvl rl) _ 0); [spot| exact HR|exact Hx|left; split_and!; done| |by rewrite entries_plug; simpl].
        destruct ctx as [|[]]; [done|by right].
    - (* two children *)
      assert (root (Nd ml ll il kvl rl) ≠ 0) as Hl0 by (eapply (rep_nz' cap t _ (F false m i kv (Nd mr lr ir kvr rr) :: ctx)); [exact HR|done|done]).
      assert (root (Nd mr lr ir kvr rr) ≠ 0) as Hr0 by (eapply (rep_nz' cap t _ (F true m i kv (Nd ml ll il kvl rl) :: ctx)); [exact HR|done|done]).
      rewrite decide_False by exact Hl0. rewrite decide_False by exact Hr0. clear Hl0 Hr0.
      revert HR Hm0 Hnd Hcp HQ Hrest Hln.
      assert (Nd ml ll il kvl rl ≠ Lf) as Hlne by done. revert Hlne.
      generalize (Nd ml ll il kvl rl), (Nd mr lr ir kvr rr). clear ml ll il kvl rl mr lr ir kvr rr.
      intros l r Hlne HR Hm0 Hnd Hcp _ Hrest Hln.
      destruct (max_split l Hlne) as (cm & mc & ml & j & kvj & Hl & Hj & Hcm).
      apply wp_bind. eapply wp_gets; [by apply (rep_find_max cap t (F false m i kv r :: ctx) l HR)|]. rewrite <- Hj. clear Hj.
      set (full := cm ++ F false m i kv r :: ctx).
      assert (plug ctx (Nd m l i kv r) = plug full (Nd mc ml j kvj Lf)) as HU.
      { unfold full. rewrite plug_app. simpl. by rewrite <- Hl. }
      pose proof HR as HRf. rewrite HU in HRf.
      apply wp_bind. eapply wp_gets; [by apply (rep_parent cap t _ full (Nd mc ml j kvj Lf) HRf eq_refl)|].
      apply wp_bind. eapply wp_gets; [exact (rep_left cap t _ full _ _ _ _ _ HRf eq_refl)|].
      apply wp_bind. eapply wp_gets; [exact (rep_black cap t _ full (Nd mc ml j kvj Lf) HRf eq_refl)|].
      apply wp_bind. eapply wp_gets; [by apply (rep_parent cap t _ full (Nd mc ml j kvj Lf) HRf eq_refl)|].
      simpl mark.
      (* balance of the remaining tree *)
      set (full' := cm ++ F false m j kvj r :: ctx).
      assert (cpot full' 0 + pot ml + (if decide (mc = 0%N) then 4 else 0) + b ≤ rem)%nat as Hlf.
      { rewrite HU, pot_plug in Hln. replace (cpot full' 0) with (cpot full 0) by (unfold full, full'; by rewrite !cpot_app).
        pose proof (cpot_le full 0 mc). destruct (decide (mc = 0%N)) as [->|]; simpl in *; lia. }
      assert (∃ n1, rbi ml n1 ∧ hole_ok full' ml n1 mc) as (n1 & Hml & Hh).
      { rewrite HU in Hm0. assert (∃ n2, rbi (plug full (Nd mc ml j kvj Lf)) n2) as [n2 Hn2].
        { rewrite <- HU. eapply cx_plug; [exact Hnd|exact Hcx|done]. }
        destruct (cx_unplug _ _ _ Hn2 Hm0) as (n3 & Hn3 & Hcx3 & Hcp3). apply (cx_readdr _ _ _ _ _ j kvj) in Hcx3.
        destruct (rbi_mk_inv false _ _ _ _ _ _ Hn3) as [(-> & Hx & _ & Hmx & _)|(-> & n' & -> & Hx & _)].
        - exists n3. split; [done|]. right. split_and!; [done|done| |done]. unfold full'. by destruct cm.
        - exists n'. split; [done|]. by left. }
      assert (plug full' ml = plug ctx (Nd m (plug cm ml) j kvj r)) as HU'.
      { unfold full'. rewrite plug_app. done. }
      assert (entries (plug full' ml) = cbef ctx ++ entries l ++ entries r ++ caft ctx) as He.
      { rewrite HU', entries_plug, Hl. simpl. rewrite !entries_plug. simpl. rewrite <- !app_assoc. simpl.
        by rewrite (caft_right cm Hcm). }
      (* the last steps *)
      assert (∀ t1 pd li pj, R t1 ((j, Node [root (plug cm ml); 0; pj; mc] kvj) :: (i, Node [li; root r; ctop ctx; m] kv) ::
         cells j (plug cm ml) ++ cells i r ++ ccells ctx i) (croot ctx i) → pd_ok full' ml pd →
         wp (rb_transplant i j;;
             r ← gets (λ t, rb_get_right t i);
             rb_connect j r Right;;
             c ← gets (λ t, rb_get_color t i);
             rb_color_node j c;;
             mret (root ml, pd, bool_decide (mc = 0))) t1
          (λ a t', wp (let '(pivot, parent_and_dir, is_black) := a in
            rb_remove_allocator_node i;;
            if (is_black : bool) then
              t ← mget;
              if rb_is_root t pivot then rb_color_black pivot;; mret rem
              else rba_fix_remove rem pivot parent_and_dir
            else mret rem) t' Q)) as Hlast.
      { intros t1 pd li pj HR1 Hpd. eapply wp_replace; [exact HR1|]. intros t2 HR2.
        eapply Hrest; [exact Hlf|rewrite HU'; exact HR2|exact Hml|exact Hh|exact Hpd|exact He]. }
      apply wp_bind. destruct cm as [|[fd0 fm0 fa0 fkv0 fo0] cm].
      + (* the maximum is the left child itself *)
        rewrite decide_False by (simpl; naive_solver). simpl in Hl, HU'.
        assert (pd_ok full' ml (if decide (root ml = SENTINEL) then Some (j, Left) else None)) as Hpd.
        { unfold full'. simpl. destruct (decide (root ml = SENTINEL)); [by left|right]. split; [done|]. by intros ->. }
        subst l. assert (R t ((j, Node [root ml; 0; i; mc] kvj) :: (i, Node [j; root r; ctop ctx; m] kv) ::
           cells j ml ++ cells i r ++ ccells ctx i) (croot ctx i)) as HR1.
        { apply rep_focus in HR. eapply R_perm; [exact HR|]. simpl. unfold rgrb.
          generalize (cells j ml), (cells i r), (ccells ctx i). intros. solve_Permutation. }
        case_decide as Hml0.
        * apply wp_bind. eapply wp_gets; [by apply (rep_is_leaf cap t full _ _ _ _ _ HRf)|].
          replace (match ml with Lf => true | _ => false end) with true.
          2:{ destruct ml; [done|]. exfalso. eapply (rep_nz cap t _ (F false mc j kvj Lf :: full)); [exact HRf|done|done]. }
          apply wp_bind, wp_massert; [done|]. apply wp_ret. by eapply Hlast; [exact HR1|].
        * apply wp_ret. by eapply Hlast; [exact HR1|].
      + (* it is further down *)
        apply Forall_cons in Hcm as [Hcm _]. simpl in Hcm. subst fd0. rewrite decide_True; cycle 1.
        { simpl. eapply addr_l_ne; [exact (rep_NoDup cap _ _ HR)|]. rewrite Hl, entries_plug. simpl.
          rewrite !fmap_app, !elem_of_app. simpl. rewrite elem_of_list_singleton. auto. }
        apply wp_bind. apply rep_focus in HRf. eapply (wp_transplant cap t full (cells (ctop full) (Nd mc ml j kvj Lf)) j).
        { eapply R_perm; [exact HRf|]. apply Permutation_app_comm. }
        { simpl. unfold rgrb. apply elem_of_list_here. }
        clear t HR HRf. intros t HR.
        eapply (R_reparent cap t ((j, Node [root ml; 0; ctop full; mc] kvj) :: ccells full (root ml)) _ ml j).
        { eapply R_perm; [exact HR|]. generalize (ccells full (root ml)). intros X. simpl. unfold rgrb. rewrite app_nil_r.
          generalize (cells j ml). intros. solve_Permutation. }
        clear t HR. intros t HR. set (l' := plug (F true fm0 fa0 fkv0 fo0 :: cm) ml) in *.
        assert (R t ((j, Node [root ml; 0; ctop full; mc] kvj) :: (i, Node [root l'; root r; ctop ctx; m] kv) ::
          cells i l' ++ cells i r ++ ccells ctx i) (croot ctx i)) as HR1.
        { assert (plug full ml = plug ctx (Nd m l' i kv r)) as HU2 by (unfold full; by rewrite plug_app).
          assert (croot full (root ml) = croot ctx i) as Hcr by (by rewrite <- root_plug, HU2, root_plug).
          rewrite Hcr in HR. eapply R_perm; [exact HR|]. rewrite <- Permutation_middle, <- cells_plug, HU2, cells_plug.
          simpl. unfold rgrb. by rewrite <- app_assoc. }
        clear HR. rename HR1 into HR.
        apply wp_bind. eapply wp_gets; [eapply (R_left cap t); [exact HR|apply elem_of_list_further, elem_of_list_here]|].
        apply wp_bind, rb_connect_set, wp_bind. eapply R_set; [exact HR|done|]. clear t HR. intros t HR.
        change (setr Left (root l') _) with (Node [root l'; 0; ctop full; mc] kvj) in HR.
        eapply (R_reparent cap t ((j, Node [root l'; 0; ctop full; mc] kvj) :: (i, Node [root l'; root r; ctop ctx; m] kv) :: cells i r ++ ccells ctx i) _ l' i j).
        { eapply R_perm; [exact HR|]. generalize (ccells ctx i), (cells i l'), (cells i r). intros X Y Z. solve_Permutation. }
        clear t HR. intros t HR. apply wp_ret. eapply Hlast.
        { eapply R_perm; [exact HR|]. generalize (ccells ctx i), (cells j l'), (cells i r). intros X Y Z. solve_Permutation. }
        unfold full'. simpl. destruct (decide (root ml = SENTINEL)); [by left|right]. split; [done|]. by intros ->.
  Qed.
  Lemma wpa_remove_found rem t ctx m (l : tree) i kv (r : tree) k (Q : nat → rbt → Prop) :
    rbok t (plug ctx (Nd m l i kv r)) → cmp k kv.1 = Eq → (pot (plug ctx (Nd m l i kv r)) + 4 + b ≤ rem)%nat →
    (∀ rem' t' U', rbok t' U' → rem_rel cmp k (entries (plug ctx (Nd m l i kv r))) (Some kv.2) (entries U') →
       entries U' = (cbef ctx ++ entries l) ++ entries r ++ caft ctx → (pot U' + b ≤ rem')%nat → Q rem' t') →
    wp (rba_remove_tree_node rem i) t Q.
  Proof using HO.
    intros [HR Hb Ha] Hk Hln HQ. destruct (onpath_found cmp HO _ _ _ _ _ _ _ Ha Hk) as [Hbe Hab].
    eapply wpa_remove_tree_node; [exact HR|exact Hb|exact Hln|]. intros rem' t' U' HR' Hb' He' Hp'.
    rewrite app_assoc in He'. rewrite entries_del in Ha. rewrite fmap_app, fmap_cons in Ha.
    assert (ascending cmp (entries U').*2) as Ha'.
    { rewrite He', fmap_app. by eapply ascending_delete. }
    eapply HQ; [by split| |done|done]. rewrite He', entries_del.
    eapply rem_present; [done|done|by rewrite fmap_app|by rewrite fmap_app].
  Qed.
  Lemma wpa_remove_loop fuel rem t ctx m l i kv r k (Q : option V * nat → rbt → Prop) :
    rbok t (plug ctx (Nd m l i kv r)) → onpath cmp k ctx → (height (Nd m l i kv r) ≤ fuel)%nat →
    (pot (plug ctx (Nd m l i kv r)) + 4 + b ≤ rem)%nat →
    (∀ o rem' t' U', rbok t' U' → rem_rel cmp k (entries (plug ctx (Nd m l i kv r))) o (entries U') →
       (pot U' + b ≤ rem')%nat → Q (o, rem') t') →
    wp (rba_remove_loop cmp fuel rem k i) t Q.
  Proof using HO.
    revert ctx m l i kv r. induction fuel as [|fuel IH]; intros ctx m l i kv r Hok Hp Hh Hln HQ; [simpl in Hh; lia|].
    pose proof Hok as [HR Hbal Hasc]. simpl rba_remove_loop. apply wp_bind. eapply wp_gets; [by eapply rep_node|].
    destruct (cmp k kv.1) eqn:Ek.
    - apply wp_bind. eapply wpa_remove_found; [exact Hok|exact Ek|exact Hln|]. intros rem' t' U' Hok' Hr' _ Hp'. apply wp_ret. by eapply HQ.
    - apply wp_bind. eapply wp_gets; [by eapply rep_left|]. destruct l as [|ml ll il kvl rl].
      + rewrite decide_True by done. apply wp_ret. eapply HQ; [exact Hok| |lia].
        destruct (onpath_left cmp HO _ _ _ _ _ _ _ Hasc Hp Ek) as [Hb Ha].
        eapply rem_absent; [exact (entries_plug (F false m i kv r :: ctx) Lf)|done|done].
      + rewrite decide_False by (eapply (rep_nz cap t _ (F false m i kv r :: ctx)); [exact HR|done]).
        eapply (IH (F false m i kv r :: ctx)); [exact Hok|by eapply onpath_left|simpl in *; lia|exact Hln|exact HQ].
    - apply wp_bind. eapply wp_gets; [by eapply rep_right|]. destruct r as [|mr lr ir kvr rr].
      + rewrite decide_True by done. apply wp_ret. eapply HQ; [exact Hok| |lia].
        destruct (onpath_right cmp HO _ _ _ _ _ _ _ Hasc Hp Ek) as [Hb Ha].
        eapply rem_absent; [exact (entries_plug (F true m i kv l :: ctx) Lf)|done|done].
      + rewrite decide_False by (eapply (rep_nz cap t _ (F true m i kv l :: ctx)); [exact HR|done]).
        eapply (IH (F true m i kv l :: ctx)); [exact Hok|by eapply onpath_right|simpl in *; lia|exact Hln|exact HQ].
  Qed.
  Lemma wpa_remove rem t U k (Q : option V * nat → rbt → Prop) :
    rbok t U → (pot U + 4 + b ≤ rem)%nat →
    (∀ o rem' t' U', rbok t' U' → rem_rel cmp k (entries U) o (entries U') → (pot U' + b ≤ rem')%nat → Q (o, rem') t') →
    wp (rba_remove cmp rem k) t Q.
  Proof using HO.
    intros Hok Hln HQ. pose proof Hok as [HR Hbal Hasc]. unfold rba_remove. apply wp_bind, wp_mget.
    rewrite (rep_root _ _ _ HR). destruct U as [|m l i kv r].
    - rewrite decide_True by done. apply wp_ret. eapply HQ; [exact Hok| |lia].
      eapply (rem_absent cmp k [] [] []); [done|constructor|constructor].
    - rewrite decide_False by (eapply (rep_nz cap t _ []); [exact HR|done]).
      eapply (wpa_remove_loop _ _ t [] m l i kv r); [exact Hok|apply onpath_nil| |exact Hln|exact HQ].
      pose proof (rep_tsize _ _ _ HR). pose proof (height_tsize (Nd m l i kv r)).
      erewrite R_fuel by exact HR. lia.
  Qed.
  Lemma wpa_remove_root rem t U (Q : option (K * V) * nat → rbt → Prop) :
    rbok t U → (pot U + 4 + b ≤ rem)%nat →
    (U = Lf → Q (None, rem) t) →
    (∀ m l i kv r rem' t' U', U = Nd m l i kv r → rbok t' U' → entries U' = entries l ++ entries r →
       rem_rel cmp kv.1 (entries U) (Some kv.2) (entries U') → (pot U' + b ≤ rem')%nat → Q (Some kv, rem') t') →
    wp (rba_remove_root rem) t Q.
  Proof using HO.
    intros Hok Hln HQ0 HQ. pose proof Hok as [HR Hbal Hasc]. unfold rba_remove_root. apply wp_bind, wp_mget.
    rewrite (rep_root _ _ _ HR). destruct U as [|m l i kv r].
    - rewrite decide_True by done. apply wp_ret. by apply HQ0.
    - rewrite decide_False by (eapply (rep_nz cap t _ []); [exact HR|done]).
      apply wp_bind. eapply wp_gets; [rewrite (rep_root _ _ _ HR); exact (rep_node cap t _ [] _ _ _ _ _ HR eq_refl)|].
      apply wp_bind. eapply (wpa_remove_found rem t [] m l i kv r kv.1); [exact Hok|by apply cmp_refl|exact Hln|].
      intros rem' t' U' Hok' Hr He Hp'. apply wp_ret. simpl in He. rewrite app_nil_r in He. by eapply HQ.
  Qed.
End ops.
