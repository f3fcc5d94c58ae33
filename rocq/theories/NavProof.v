(** * Proofs about the public navigation functions *)
From Verif Require Import Spec RBMain SearchProof.
From Verif Require Export NavSpec.

Lemma get_rel_mem {K V} (cmp : K → K → comparison) k (E : list (N * (K * V))) i0 kvo i kv :
  get_rel cmp k E i0 kvo → (i, kv) ∈ E → cmp k kv.1 = Eq → i0 = i ∧ kvo = Some kv.
Proof.
  intros Hr Hin Hk.
  assert (∀ X : list (N * (K * V)), below cmp k X.*2 → (i, kv) ∈ X → False) as Hb.
  { intros X Hx Hi. unfold below in Hx. rewrite Forall_forall in Hx. specialize (Hx kv). rewrite Hk in Hx.
    discriminate Hx. apply elem_of_list_fmap. by exists (i, kv). }
  assert (∀ X : list (N * (K * V)), above cmp k X.*2 → (i, kv) ∈ X → False) as Ha.
  { intros X Hx Hi. unfold above in Hx. rewrite Forall_forall in Hx. specialize (Hx kv). rewrite Hk in Hx.
    discriminate Hx. apply elem_of_list_fmap. by exists (i, kv). }
  destruct Hr as [A B i' kv' -> Hnz Hk' H1 H2|A B -> H1 H2].
  - apply elem_of_app in Hin as [Hin|[[= -> ->]|Hin]%elem_of_cons]; [by destruct (Hb A)|done|by destruct (Ha B)].
  - apply elem_of_app in Hin as [Hin|Hin]; [by destruct (Hb A)|by destruct (Ha B)].
Qed.

Section rb.
  Context `{Profile} {K V : Type} (cmp : K → K → comparison) (HO : OrdLaws cmp) (cap : N).
  Notation tree := (tree (K * V)).
  Implicit Types t : rbt K V.
  Implicit Types U : tree.

  Fixpoint bt U : btree (K * V) := match U with Lf => BLeaf | Nd _ l i kv r => BNode (bt l) i kv (bt r) end.
  Lemma btop_bt U : btop (bt U) = root U.
  Proof. by destruct U. Qed.
  Lemma bviews_entries p U : (λ n, (v_index n, v_pair n)) <$> bviews p (bt U) = entries U.
  Proof.
    revert p. induction U as [|m l IHl i kv r IHr]; intros p; simpl; [done|].
    rewrite fmap_app, fmap_cons, IHl, IHr. done.
  Qed.
  Lemma bviews_mem p U n : n ∈ bviews p (bt U) →
    ∃ ctx m l r, U = plug ctx (Nd m l (v_index n) (v_pair n) r) ∧ v_left n = root l ∧ v_right n = root r ∧ v_parent n = ctopb p ctx.
  Proof.
    revert p. induction U as [|m l IHl i kv r IHr]; intros p; simpl; [by intros ?%elem_of_nil|].
    intros [Hin|[->|Hin]%elem_of_cons]%elem_of_app.
    - destruct (IHl _ Hin) as (ctx & m' & l' & r' & -> & ? & ? & Hp). exists (ctx ++ [F false m i kv r]), m', l', r'.
      rewrite plug_app. split_and!; [done..|]. rewrite Hp. by destruct ctx.
    - exists [], m, l, r. simpl. by rewrite !btop_bt.
    - destruct (IHr _ Hin) as (ctx & m' & l' & r' & -> & ? & ? & Hp). exists (ctx ++ [F true m i kv l]), m', l', r'.
      rewrite plug_app. split_and!; [done..|]. rewrite Hp. by destruct ctx.
  Qed.
  Lemma rbi_mark U ctx m l i kv r n : U = plug ctx (Nd m l i kv r) → rbi U n → m = 0 ∨ m = 1.
  Proof.
    revert n U. induction ctx as [|f ctx IH] using rev_ind; intros n U ->.
    - simpl. inversion 1; auto.
    - rewrite plug_app. destruct f as [d m' a kv' o]. intros Hr. destruct d; simpl in Hr; inversion Hr; subst; by eapply IH.
  Qed.

  Lemma rb_root_parent t U ctx m l i kv r : rep cap t U → U = plug ctx (Nd m l i kv r) → root U = i ↔ ctopb SENTINEL ctx = SENTINEL.
  Proof.
    intros HR HU. destruct ctx as [|[d m' a kv' o] ctx]; [by rewrite HU|].
    assert (a ≠ 0) as Hne.
    { eapply (rep_nz cap t U ctx m' (if d then o else Nd m l i kv r) a kv' (if d then Nd m l i kv r else o) HR).
      rewrite HU. by destruct d. }
    split; [|done]. intros He. exfalso. apply Hne.
    pose proof (rep_parent cap t U _ _ HR HU) as Hq. simpl in Hq.
    assert (U ≠ Lf) as HU0. { intros ->. simpl in He. subst i. by eapply (rep_nz _ _ _ _ _ _ _ _ _ HR HU). }
    pose proof (rep_parent cap t U [] U HR eq_refl HU0) as Hp. rewrite He, Hq in Hp by done. by injection Hp.
  Qed.

  Lemma rb_tells_ok t U n : rbok cmp cap t U → n ∈ bviews SENTINEL (bt U) → rb_tells cmp t n.
  Proof using HO.
    intros Hok Hin. destruct (bviews_mem _ _ _ Hin) as (ctx & m & l & r & HU & Hl & Hr & Hp).
    pose proof Hok as [HR [_ [nb Hb]] _]. pose proof (rbi_mark _ _ _ _ _ _ _ _ HU Hb) as Hm.
    pose proof (rep_left _ _ _ _ _ _ _ _ _ HR HU) as H1. pose proof (rep_right _ _ _ _ _ _ _ _ _ HR HU) as H2.
    pose proof (rep_color _ _ _ _ _ HR HU) as H4. simpl in H4. rewrite <- Hl in H1. rewrite <- Hr in H2.
    constructor.
    - by eapply rep_node.
    - done.
    - done.
    - rewrite Hp. by eapply (rep_parent _ _ _ _ _ HR HU).
    - exact H1.
    - exact H2.
    - intros dir. unfold rb_get_dir. by case_decide.
    - unfold rb_is_leaf. rewrite H1. simpl. case_decide as E1; [rewrite H2; simpl|].
      + f_equal. apply bool_decide_ext. tauto.
      + f_equal. symmetry. apply bool_decide_eq_false_2. tauto.
    - unfold rb_is_root. apply bool_decide_ext. rewrite (rep_root _ _ _ HR), Hp. by eapply rb_root_parent.
    - destruct Hm as [-> | ->]; [exists false|exists true]; (split; [exact H4|]); unfold rb_is_red, rb_is_black; unfold rb_get_color in H4; rewrite H4; done.
    - destruct (rb_addr_ok cmp HO cap t U (v_pair n).1 Hok) as (i0 & kvo & Hg & Ha & _). rewrite Ha. f_equal.
      eapply (get_rel_mem _ _ _ _ _ (v_index n) (v_pair n)); [exact Hg| |by apply cmp_refl].
      rewrite HU, entries_plug. simpl. rewrite !elem_of_app, elem_of_cons. tauto.
  Qed.
  Lemma rb_tells_sentinel_ok t U : rbok cmp cap t U → rb_tells_sentinel t.
  Proof.
    intros Hok. destruct Hok as [HR _ _]. constructor; try done.
    - intros dir. unfold rb_get_dir. by case_decide.
    - unfold rb_is_root. rewrite (rep_len _ _ _ HR), (rep_root _ _ _ HR). apply bool_decide_ext.
      destruct U as [|m l i kv r]; [done|]. simpl. split.
      + intros Hi. by destruct (rep_nz _ _ _ [] _ _ _ _ _ HR eq_refl).
      + unfold lengthN. rewrite app_length. simpl. lia.
  Qed.
  Lemma rb_nav_fact t U :
    rbok cmp cap t U → let ns := bviews SENTINEL (bt U) in
    v_pair <$> ns = (entries U).*2 ∧ NoDup (v_index <$> ns) ∧ SENTINEL ∉ v_index <$> ns ∧ rb_root t = btop (bt U) ∧
    rb_tells_sentinel t ∧ ∀ n, n ∈ ns → rb_tells cmp t n.
  Proof using HO.
    intros Hok ns. pose proof Hok as [HR _ _]. pose proof (bviews_entries SENTINEL U) as He. fold ns in He.
    assert (v_index <$> ns = (entries U).*1) as Hi by (rewrite <- He, <- list_fmap_compose; done).
    split_and!.
    - rewrite <- He, <- list_fmap_compose. done.
    - rewrite Hi. by eapply rep_NoDup.
    - rewrite Hi. intros ([i kv] & Hs & Hin)%elem_of_list_fmap. simpl in Hs. destruct (cells_entries rgrb 0 _ _ _ Hin) as [rs Hrs].
      destruct HR as [Hc _]. by apply (CH_nz _ _ _ _ _ _ Hc Hrs).
    - rewrite btop_bt. by eapply rep_root.
    - by eapply rb_tells_sentinel_ok.
    - intros n Hn. by eapply rb_tells_ok.
  Qed.
  (** Writing through [get_node_mut] *)
  Lemma rb_node_mut_fact t U i kv v :
    rbok cmp cap t U → (i, kv) ∈ entries U →
    ∃ t' U', rb_set_node_value i v t = Ret () t' ∧ rb_get_mut cmp kv.1 (λ _, v) t = Ret (Some kv.2) t' ∧ rbok cmp cap t' U' ∧
      entries U' = (λ e, if decide (e.1 = i) then (i, (e.2.1, v)) else e) <$> entries U.
  Proof using HO.
    intros Hok Hin. pose proof Hok as [HR Hb Ha].
    destruct (rb_addr_ok cmp HO cap t U kv.1 Hok) as (i0 & kvo & Hg & Had & _).
    destruct (get_rel_mem _ _ _ _ _ i kv Hg Hin (cmp_refl _ HO _)) as [-> ->].
    pose proof (rep_NoDup _ _ _ HR) as Hnd.
    destruct (entries_focus U i kv Hin) as (ctx & m & l & r & ->).
    assert (i ≠ SENTINEL) as Hnz by exact (rep_nz _ _ _ ctx _ _ _ _ _ HR eq_refl).
    pose proof (rep_node _ _ _ ctx _ _ _ _ _ HR eq_refl) as Hnode.
    assert (wp (rb_set_node_value i v) t (λ _ t', rep cap t' (plug ctx (Nd m l i (kv.1, v) r)))) as Hw.
    { eapply rep_set_value; [exact HR|]. done. }
    apply wp_elim in Hw as ([] & t' & Hs & HR').
    exists t', (plug ctx (Nd m l i (kv.1, v) r)). split_and!; [done| |by eapply rbok_set_value|].
    - unfold rb_get_mut, mbind, M_bind, gets. rewrite Had. rewrite decide_False by done. rewrite Hnode. simpl. rewrite Hs. done.
    - rewrite !entries_plug in *. simpl in *. rewrite !fmap_app, !fmap_cons in *. simpl in *.
      rewrite <- app_assoc in Hnd. simpl in Hnd. rewrite app_assoc in Hnd. simpl in Hnd.
      apply NoDup_app in Hnd as (H1 & H2 & H3). apply NoDup_cons in H3 as [H3 _].
      rewrite decide_True by done. simpl.
      assert (∀ X : list (N * (K * V)), i ∉ X.*1 → X = (λ e, if decide (e.1 = i) then (i, (e.2.1, v)) else e) <$> X) as Hid.
      { intros X Hx. rewrite <- (list_fmap_id X) at 1. apply list_fmap_ext. intros j e He. simpl.
        rewrite decide_False; [done|]. intros <-. apply Hx. apply elem_of_list_fmap. exists e. split; [done|].
        by eapply elem_of_list_lookup_2. }
      assert (i ∉ (cbef ctx).*1 ++ (entries l).*1) as H4. { intros Hx. apply (H2 _ Hx). mem. }
      rewrite elem_of_app in H4, H3.
      f_equal; [apply Hid; tauto|]. rewrite <- (Hid (caft ctx)) by tauto. f_equal.
      f_equal; [apply Hid; tauto|]. f_equal. apply Hid. tauto.
  Qed.
End rb.
