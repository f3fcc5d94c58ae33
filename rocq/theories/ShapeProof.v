(** * The shape of a Critbit tree is the radix tree of its contents *)
From Verif Require Export ShapeSpec CritMain.

Section shape.
  Context `{Profile} {V : Type}.
  Fixpoint tshape (U : ctree V) : trie V :=
    match U with CL _ k _ v => TLeaf k v | CI _ _ p l r => TInner p (tshape l) (tshape r) end.

  Lemma kvs_two i k p l r : ∃ a b c, kvs (V:=V) (CI i k p l r) = a :: b :: c.
  Proof.
    rewrite kvs_CI. pose proof (kvs_ne l). pose proof (kvs_ne r).
    destruct (kvs l) as [|x [|y ?]], (kvs r); try done; simpl; eauto.
  Qed.
  Lemma filter_all {A} (P : A → Prop) `{∀ x, Decision (P x)} l : Forall P l → filter P l = l.
  Proof. induction 1 as [|x l Hx _ IH]; [done|]. by rewrite filter_cons_True, IH. Qed.
  Lemma filter_none {A} (P : A → Prop) `{∀ x, Decision (P x)} l : Forall (λ x, ¬ P x) l → filter P l = [].
  Proof. induction 1 as [|x l Hx _ IH]; [done|]. by rewrite filter_cons_False. Qed.

  Lemma radix_ok n (U : ctree V) :
    (n ≤ 128)%nat → wf U → (∀ x y, x ∈ keys U → y ∈ keys U → pre (128 - N.of_nat n) x y) → radix_tree n (kvs U) = Some (tshape U).
  Proof.
    revert U. induction n as [|m IH]; intros U Hn Hw Hp; destruct U as [i k j v|i k p l r].
    - done.
    - exfalso. rewrite keys_CI in Hp. destruct Hw as (H1 & H2 & Hl & Hr & _).
      pose proof (kvs_ne l) as El. pose proof (kvs_ne r) as Er. destruct (kvs l) as [|x xl] eqn:Ekl; [done|]. destruct (kvs r) as [|y yl] eqn:Ekr; [done|].
      unfold keys in Hp, Hl, Hr. rewrite Ekl, Ekr in *. simpl in *.
      apply Forall_cons in Hl as [[_ Hl] _]. apply Forall_cons in Hr as [[_ Hr] _].
      assert (pre (128 - 0) x.1 y.1) as Hxy by (apply Hp; set_solver). specialize (Hxy p ltac:(lia)). congruence.
    - done.
    - destruct (kvs_two i k p l r) as (a & b & c & Eabc).
      assert (kvs (CI i k p l r) = kvs l ++ kvs r) as Ekv by apply kvs_CI.
      pose proof Hw as (H1 & H2 & Hl & Hr & Hwl & Hwr).
      assert (Forall (λ kv, pre p k kv.1 ∧ bit kv.1 p = false) (kvs l)) as Hl'. { by apply Forall_fmap in Hl. }
      assert (Forall (λ kv, pre p k kv.1 ∧ bit kv.1 p = true) (kvs r)) as Hr'. { by apply Forall_fmap in Hr. }
      set (q := 127 - N.of_nat m). assert (128 - N.of_nat (S m) = q) as Eq by lia. rewrite Eq in Hp.
      assert (q ≤ p) as Hqp.
      { destruct (decide (q ≤ p)) as [|Hgt]; [done|exfalso]. rewrite keys_CI in Hp.
        pose proof (kvs_ne l) as El. pose proof (kvs_ne r) as Er. destruct (kvs l) as [|x xl] eqn:Ekl; [done|]. destruct (kvs r) as [|y yl] eqn:Ekr; [done|].
        unfold keys in Hp. rewrite Ekl, Ekr in Hp. simpl in Hp.
        apply Forall_cons in Hl' as [[_ Hl'] _]. apply Forall_cons in Hr' as [[_ Hr'] _].
        assert (pre q x.1 y.1) as Hxy by (apply Hp; set_solver). specialize (Hxy p ltac:(lia)). congruence. }
      assert (radix_tree (S m) (kvs (CI i k p l r)) =
        let zeros := filter (λ kv, key_bit q kv = false) (kvs (CI i k p l r)) in
        let ones := filter (λ kv, key_bit q kv = true) (kvs (CI i k p l r)) in
        match zeros, ones with
        | [], _ | _, [] => radix_tree m (kvs (CI i k p l r))
        | _, _ => match radix_tree m zeros, radix_tree m ones with Some a, Some b => Some (TInner q a b) | _, _ => None end
        end) as ->.
      { rewrite Eabc. cbn [radix_tree]. by destruct a. }
      cbv zeta. destruct (decide (q = p)) as [->|Hne].
      + rewrite Ekv, !filter_app.
        rewrite (filter_all (λ kv, key_bit p kv = false) (kvs l)) by (eapply Forall_impl; [exact Hl'|]; by intros ? []).
        rewrite (filter_none (λ kv, key_bit p kv = false) (kvs r)).
        2:{ eapply Forall_impl; [exact Hr'|]. intros x [_ Hx]. unfold bit in Hx. unfold key_bit. by rewrite Hx. }
        rewrite (filter_none (λ kv, key_bit p kv = true) (kvs l)).
        2:{ eapply Forall_impl; [exact Hl'|]. intros x [_ Hx]. unfold bit in Hx. unfold key_bit. by rewrite Hx. }
        rewrite (filter_all (λ kv, key_bit p kv = true) (kvs r)) by (eapply Forall_impl; [exact Hr'|]; by intros ? []).
        rewrite app_nil_r. cbn [app].
        assert (∀ (W : ctree V) c', Forall (λ x, pre p k x ∧ bit x p = c') (keys W) → ∀ x y, x ∈ keys W → y ∈ keys W → pre (128 - N.of_nat m) x y) as Hside.
        { intros W c' HW x y Hx Hy s Hs. rewrite Forall_forall in HW. destruct (HW x Hx) as [A1 A2], (HW y Hy) as [B1 B2].
          destruct (decide (s = p)) as [->|]; [congruence|]. rewrite <- (A1 s), <- (B1 s) by lia. done. }
        rewrite (IH l), (IH r); [|lia|done|by eapply Hside|lia|done|by eapply Hside].
        pose proof (kvs_ne l). pose proof (kvs_ne r). by destruct (kvs l), (kvs r).
      + assert (Forall (λ kv, key_bit q kv = bit k q) (kvs (CI i k p l r))) as Hall.
        { rewrite Ekv. apply Forall_app. split; (eapply Forall_impl; [eassumption|]); intros x [Hx _]; symmetry; apply (Hx q); lia. }
        assert (radix_tree m (kvs (CI i k p l r)) = Some (tshape (CI i k p l r))) as Hrec.
        { apply IH; [lia|done|]. intros x y Hx Hy s Hs. unfold keys in Hx, Hy.
          apply elem_of_list_fmap in Hx as (x' & -> & Hx). apply elem_of_list_fmap in Hy as (y' & -> & Hy).
          destruct (decide (s = q)) as [->|].
          - rewrite Forall_forall in Hall. pose proof (Hall _ Hx) as A1. pose proof (Hall _ Hy) as A2. unfold key_bit in *. unfold bit at 1 2. congruence.
          - apply (Hp x'.1 y'.1); [by apply elem_of_list_fmap_1|by apply elem_of_list_fmap_1|lia]. }
        destruct (bit k q).
        * rewrite (filter_none (λ kv, key_bit q kv = false)); [done|]. eapply Forall_impl; [exact Hall|]. intros x Hx. simpl. by rewrite Hx.
        * rewrite (filter_none (λ kv, key_bit q kv = true)).
          -- by destruct (filter _ _).
          -- eapply Forall_impl; [exact Hall|]. intros x Hx. simpl. by rewrite Hx.
  Qed.
  Lemma radix_of_ok (U : ctree V) : wf U → radix_tree_of (kvs U) = Some (tshape U).
  Proof. intros Hw. apply radix_ok; [done|done|]. intros x y _ _ q Hq. by replace (128 - N.of_nat 128) with 0 in Hq by done; lia. Qed.

  Lemma crep_shape nn cap t U (ctx : list (frame V)) W : crep nn cap t U → plug ctx W = U → cb_shape t (croot W) (tshape W).
  Proof.
    intros HR. pose proof (cr_nodes _ _ _ _ HR) as (fr & Ho & _). revert ctx.
    induction W as [i k j v|i k p l IHl r IHr]; intros ctx <-.
    - pose proof (CL_cell ctx i k j v) as Hin. simpl.
      assert ((i, (j, (k, v))) ∈ ents (plug ctx (CL i k j v))) as He. { rewrite ents_plug. simpl. rewrite elem_of_app, elem_of_cons. auto. }
      destruct (entry_ok _ _ _ _ _ HR He) as [Hent Hz].
      eapply shape_leaf; [done|exact (rd_leaf_index _ _ _ _ Ho _ _ _ _ _ _ Hin)| |exact Hent].
      destruct HR as [_ _ Hl]. eapply CH_nz; [exact Hl|apply lcell_in].
    - pose proof (CI_cell ctx i k p l r) as Hin. cbn [croot tshape].
      apply (shape_inner t i (croot l) (croot r) (CNode k p)).
      + eapply AOK_nz; [exact Ho|exact Hin].
      + exact (rd_leaf_index _ _ _ _ Ho _ _ _ _ _ _ Hin).
      + exact (rd_node _ _ _ _ Ho _ _ _ _ _ _ Hin).
      + exact (rd_left _ _ _ _ Ho _ _ _ _ _ _ Hin).
      + exact (rd_right _ _ _ _ Ho _ _ _ _ _ _ Hin).
      + by apply (IHl (Fr false i k p r :: ctx)).
      + by apply (IHr (Fr true i k p l :: ctx)).
  Qed.
  Lemma shape_det (t : critbit V) i T T' : cb_shape t i T → cb_shape t i T' → T = T'.
  Proof.
    intros HT. revert T'. induction HT as [i k v li Hi H1 H2 H3|i l r nd L R Hi H1 H2 H3 H4 _ IHl _ IHr]; intros T' HT'; inversion HT'; subst; try congruence.
    assert (nd0 = nd) as -> by congruence. assert (l0 = l) as -> by congruence. assert (r0 = r) as -> by congruence.
    by rewrite (IHl L0), (IHr R0).
  Qed.
  Lemma cb_shape_fact (nn ms : nat) (d : V) (t0 : critbit V) (o : list (om_op N V)) :
    (0 < ms)%nat → N.of_nat nn + 1 < W32 → cb_new nn ms d = Some t0 → Forall u128_op o → let t := (history cb_step o t0).2 in
    match cb_contents ms o with
    | [] => cb_root t = SENTINEL
    | l => ∃ T, radix_tree_of l = Some T ∧ cb_shape t (cb_root t) T
    end.
  Proof.
    intros H0 Hw Hnew Hu. destruct (cb_reach nn ms d t0 H0 Hw Hnew o Hu) as (_ & E & HE & <-). cbv zeta.
    destruct HE as [[[Hr _ _] ->]|(U & HR & HwU & ->)]; [done|].
    change (ents U).*2.*2 with (kvs U). pose proof (radix_of_ok U HwU) as Hrad. pose proof (kvs_ne U).
    destruct (kvs U) as [|kv l]; [done|]. exists (tshape U). split; [done|]. rewrite (cr_root _ _ _ _ HR). by eapply (crep_shape _ _ _ _ []).
  Qed.
  Lemma cb_shape_indep (nn1 ms1 nn2 ms2 : nat) (d1 d2 : V) (s1 s2 : critbit V) (o1 o2 : list (om_op N V)) :
    (0 < ms1)%nat → N.of_nat nn1 + 1 < W32 → cb_new nn1 ms1 d1 = Some s1 → Forall u128_op o1 →
    (0 < ms2)%nat → N.of_nat nn2 + 1 < W32 → cb_new nn2 ms2 d2 = Some s2 → Forall u128_op o2 →
    cb_contents ms1 o1 = cb_contents ms2 o2 → cb_contents ms1 o1 ≠ [] →
    let t1 := (history cb_step o1 s1).2 in let t2 := (history cb_step o2 s2).2 in
    ∃ T, (∀ T', cb_shape t1 (cb_root t1) T' ↔ T' = T) ∧ (∀ T', cb_shape t2 (cb_root t2) T' ↔ T' = T).
  Proof.
    intros A1 A2 A3 A4 B1 B2 B3 B4 Heq Hne. cbv zeta.
    pose proof (cb_shape_fact _ _ _ _ _ A1 A2 A3 A4) as HA. pose proof (cb_shape_fact _ _ _ _ _ B1 B2 B3 B4) as HB. cbv zeta in HA, HB.
    rewrite <- Heq in HB. destruct (cb_contents ms1 o1) as [|kv l]; [done|].
    destruct HA as (T & HT & HA). destruct HB as (T' & HT' & HB). rewrite HT in HT'. injection HT' as <-. exists T.
    split; intros T'; (split; [intros Hs; by eapply shape_det|by intros ->]).
  Qed.
End shape.
