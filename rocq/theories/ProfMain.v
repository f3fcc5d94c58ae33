(** * Both build profiles give the same histories *)
From Verif Require Import IterProof.
From Verif Require Export ProfProof.
From Verif Require AllocPoolProof DequeProof HashMain RBMain AVLMain CritMain.

Lemma mle_call {S A} (m m' : M S A) s r : mle m m' → (call m s).1 = Val r → m s = m' s.
Proof. intros Hm Hc. unfold call in Hc. destruct (Hm s) as [[s' He]|He]; [by rewrite He in Hc|done]. Qed.
Lemma rle_val {A} (r r' : res A) a : rle r r' → r = Val a → r = r'.
Proof. intros [->| ->]; done. Qed.
Lemma mle_ret {S A} (m m' : M S A) s a s' : mle m m' → m s = Ret a s' → m s = m' s.
Proof. intros Hm He. destruct (Hm s) as [[x Hx]|]; congruence. Qed.
Lemma call_ext {S A} (m m' : M S A) s : m s = m' s → call m s = call m' s.
Proof. unfold call. by intros ->. Qed.
Lemma history_same {S O A} (step step' : O → M S A) (P : S → Prop) (R : O → Prop) ops s :
  (∀ o s, R o → P s → step o s = step' o s ∧ P (call (step o) s).2) → Forall R ops → P s →
  history step ops s = history step' ops s ∧ P (history step ops s).2.
Proof.
  intros Hs Hr. revert s. induction Hr as [|o ops Ho Hr IH]; intros s Hp; simpl; [done|].
  destruct (Hs o s Ho Hp) as [He Hp']. rewrite <- (call_ext _ _ _ He). destruct (call (step o) s) as [r s1]. simpl in Hp'.
  destruct (IH s1 Hp') as [<- Hp2]. by destruct (history step ops s1).
Qed.

(** ** Ordered maps *)
Lemma om_same {S K V} (a b : oapi S K V) (R : om_op K V → Prop) (spec : om_op K V → res (om_out K V)) s o :
  (∀ o, mle (om_step a o) (om_step b o)) →
  (∀ k, rle (a_get a s k) (a_get b s k)) → (∀ k f, mle (a_get_mut a k f) (a_get_mut b k f)) →
  (∀ k, a_get a s k = a_get b s k → a_index a s k = a_index b s k) →
  (∀ k f, a_get_mut a k f s = a_get_mut b k f s → a_index_mut a k f s = a_index_mut b k f s) →
  (∀ o, R o → (call (om_step a o) s).1 = spec o) →
  (∀ o, R o → match o with MIndex k => R (MGet k) | MIndexMut k f => R (MGetMut k f) | _ => ∃ x, spec o = Val x end) →
  R o → om_step a o s = om_step b o s.
Proof.
  intros Hm Hg Hgm Hi Him Hc Hsp Ho. pose proof (Hsp o Ho) as Hx.
  destruct o as [k v|k|k|k f|k| | | | | |k|k f|sc|sc]; try (destruct Hx as [x Hx]; eapply mle_call; [apply Hm|by rewrite Hc]).
  - destruct (Hsp _ Hx) as [x Hv]. rewrite <- Hc in Hv by done. unfold om_step, mbind, M_bind, gets in Hv |- *. unfold call in Hv.
    rewrite Hi; [done|]. destruct (a_get a s k) as [y|] eqn:E; [|done]. destruct (Hg k) as [Hp|Hp]; [by rewrite E in Hp|by rewrite <- Hp].
  - destruct (Hsp _ Hx) as [x Hv]. rewrite <- Hc in Hv by done. unfold om_step, mbind, M_bind in Hv |- *. unfold call in Hv.
    rewrite Him; [done|]. destruct (a_get_mut a k f s) as [y s1|] eqn:E; [|done]. rewrite <- E. eapply mle_ret; [apply Hgm|exact E].
Qed.
Lemma om_spec_val {K V} (cmp : K → K → comparison) cap (o : om_op K V) l :
  match o with MIndex _ | MIndexMut _ _ => True | _ => ∃ x, (om_spec cmp cap o l).1 = Val x end.
Proof. destruct o; try done; cbn; repeat case_match; simplify_eq; eauto. Qed.

Section rb.
  Context (Q : Profile) {K V : Type} (cmp : K → K → comparison) (HO : OrdLaws cmp).
  Hint Resolve p_rb_insert p_rb_remove p_rb_get p_rb_get_mut p_rb_contains p_rb_get_min p_rb_get_max p_rb_index p_rb_index_mut p_rb_iterate
    p_rb_iterate_mut p_rb_remove_root : prof.
  Lemma p_rb_om_step (o : om_op K V) : mle (om_step (rb_api (H:=dbg) cmp) o) (om_step (rb_api (H:=Q) cmp) o).
  Proof. destruct o; unfold om_step, rb_api; cbn [a_insert a_remove a_get a_get_mut a_contains a_len a_capacity a_min a_max a_index a_index_mut a_iter a_iter_mut];
    repeat pstep. Qed.
  Lemma p_rb_step (o : option (om_op K V)) : mle (rb_step (H:=dbg) cmp o) (rb_step (H:=Q) cmp o).
  Proof. destruct o as [o|]; [apply p_rb_om_step|]. unfold rb_step. repeat pstep. Qed.
  Lemma rb_profiles ms (d : K * V) ops :
    (0 < ms)%nat → N.of_nat ms + 1 < W32 →
    history (rb_step (H:=dbg) cmp) ops (rb_new ms d) = history (rb_step (H:=Q) cmp) ops (rb_new ms d).
  Proof using HO.
    intros H0 Hw. assert (0 < N.of_nat ms) as Hcap by lia.
    refine (proj1 (history_same _ _ (λ t, ∃ U, RBOps.rbok cmp (N.of_nat ms) t U) (λ _, True) ops _ _ _ _)).
    - intros o t _ [U Hok]. split.
      + destruct o as [o|].
        * assert (RBOps.RBI cmp (N.of_nat ms) t (TreeProof.entries U)) as HI by by exists U.
          apply (om_same _ _ (λ _, True) (λ o, (om_spec cmp (N.of_nat ms) o (TreeProof.entries U).*2).1)); try done.
          -- apply p_rb_om_step.
          -- intros. apply p_rb_get.
          -- intros. apply p_rb_get_mut.
          -- intros k Hk. cbn in *. unfold rb_index, mbind, res_bind. by rewrite Hk.
          -- intros k f Hk. cbn in *. unfold rb_index_mut, mbind, M_bind. by rewrite Hk.
          -- intros o' _. apply (MapSim.om_step_ok _ cmp _ _ (RBOps.rb_om_ok (H:=dbg) cmp HO _ Hcap) o' t _ HI).
          -- intros o' _. pose proof (om_spec_val cmp (N.of_nat ms) o' (TreeProof.entries U).*2) as Hx. by destruct o'.
        * assert (wp (rb_remove_root (H:=dbg)) t (λ _ _, True)) as Hx.
          { eapply (RBOps.wp_remove_root cmp HO); [exact Hok|done|done]. }
          unfold rb_step, mbind, M_bind. apply wp_elim in Hx as (x & t' & He & _). by rewrite <- (mle_ret _ _ _ _ _ (p_rb_remove_root Q) He).
      + destruct (RBMain.rb_step_ok (H:=dbg) cmp HO _ Hcap o t U Hok) as (r & t' & U' & -> & Hok' & _). by exists U'.
    - by apply Forall_true.
    - exists TreeProof.Lf. by apply RBOps.rbok_new.
  Qed.
End rb.

Section av.
  Context (Q : Profile) {K V : Type} (pcmp : K → K → option comparison) (HO : OrdLaws (av_cmp pcmp)).
  Hint Resolve p_av_insert p_av_remove p_av_get p_av_get_mut p_av_contains p_av_get_min p_av_get_max p_av_index p_av_index_mut p_av_iterate
    p_av_iterate_mut : prof.
  Lemma p_av_om_step (o : om_op K V) : mle (om_step (av_api (H:=dbg) pcmp) o) (om_step (av_api (H:=Q) pcmp) o).
  Proof. destruct o; unfold om_step, av_api; cbn [a_insert a_remove a_get a_get_mut a_contains a_len a_capacity a_min a_max a_index a_index_mut a_iter a_iter_mut];
    repeat pstep. Qed.
  Lemma av_profiles ms (d : K * V) ops :
    (0 < ms)%nat → N.of_nat ms + 1 < W32 →
    history (av_step (H:=dbg) pcmp) ops (av_new ms d) = history (av_step (H:=Q) pcmp) ops (av_new ms d).
  Proof using HO.
    intros H0 Hw. assert (0 < N.of_nat ms) as Hcap by lia.
    refine (proj1 (history_same _ _ (λ t, ∃ E, AVLOps.AVI pcmp (N.of_nat ms) t E) (λ _, True) ops _ _ _ _)).
    - intros o t _ [E HI]. pose proof (MapSim.om_step_ok _ _ _ _ (AVLOps.av_om_ok (H:=dbg) (V:=V) pcmp HO _ Hcap)) as Hst. split.
      + apply (om_same _ _ (λ _, True) (λ o, (om_spec (av_cmp pcmp) (N.of_nat ms) o E.*2).1)); try done.
        * apply p_av_om_step.
        * intros. apply p_av_get.
        * intros. apply p_av_get_mut.
        * intros k Hk. cbn in *. unfold av_index, mbind, res_bind. by rewrite Hk.
        * intros k f Hk. cbn in *. unfold av_index_mut, mbind, M_bind. by rewrite Hk.
        * intros o' _. by apply Hst.
        * intros o' _. pose proof (om_spec_val (av_cmp pcmp) (N.of_nat ms) o' E.*2) as Hx. by destruct o'.
      + destruct (Hst o t E HI) as (_ & E' & HI' & _). by exists E'.
    - by apply Forall_true.
    - exists [], TreeProof.Lf. split; [by apply AVLOps.avok_new|done].
  Qed.
End av.

Section cb.
  Context (Q : Profile) {V : Type}.
  Hint Resolve p_cb_insert p_cb_remove p_cb_get p_cb_get_mut p_cb_contains p_cb_get_min p_cb_get_max p_cb_index p_cb_index_mut p_cb_iterate
    p_cb_iterate_mut : prof.
  Lemma p_cb_om_step (o : om_op N V) : mle (om_step (cb_api (H:=dbg)) o) (om_step (cb_api (H:=Q)) o).
  Proof. destruct o; unfold om_step, cb_api; cbn [a_insert a_remove a_get a_get_mut a_contains a_len a_capacity a_min a_max a_index a_index_mut a_iter a_iter_mut];
    repeat pstep. Qed.
  Lemma cb_profiles nn ms (d : V) t0 ops :
    (0 < ms)%nat → N.of_nat nn + 1 < W32 → cb_new nn ms d = Some t0 → Forall u128_op ops →
    history (cb_step (H:=dbg)) ops t0 = history (cb_step (H:=Q)) ops t0.
  Proof.
    intros H0 Hw Hnew Hu. destruct (CritMain.new_ok (H:=dbg) nn ms d t0 H0 Hw Hnew) as (Hok & Hn & Hc).
    refine (proj1 (history_same _ _ (λ t, ∃ E, CritMain.cbok (N.of_nat nn) (N.of_nat ms) t E) u128_op ops _ _ Hu _)); [|by exists []].
    intros o t Ho [E HI]. pose proof (CritMain.cb_step_ok (H:=dbg) (V:=V) _ _ Hc Hn) as Hst. split.
    - apply (om_same _ _ u128_op (λ o, (cb_spec (N.of_nat ms) o E.*2.*2).1)); try done.
      + apply p_cb_om_step.
      + intros. apply p_cb_get.
      + intros. apply p_cb_get_mut.
      + intros k Hk. cbn in *. unfold cb_index, mbind, res_bind. by rewrite Hk.
      + intros k f Hk. cbn in *. unfold cb_index_mut, mbind, M_bind. by rewrite Hk.
      + intros o' Ho'. by apply Hst.
      + intros o' Ho'. pose proof (om_spec_val N.compare (N.of_nat ms) o' E.*2.*2) as Hx. destruct o'; try done.
        unfold cb_spec. destruct (decide _); [done|by eexists].
    - destruct (Hst o t E Ho HI) as (_ & E' & HI' & _). by exists E'.
  Qed.
End cb.

Section ht.
  Context (Q : Profile) {K V : Type} (keq : K → K → bool) (hash : K → N) (HL : HashLaws keq hash).
  Lemma ht_profiles nb ms (d : K * V) h0 ops :
    (0 < nb)%nat → N.of_nat ms + 1 < W32 → ht_new nb ms d = Some h0 →
    history (ht_step (H:=dbg) keq hash) ops h0 = history (ht_step (H:=Q) keq hash) ops h0.
  Proof using HL.
    intros H0 Hw Hnew.
    refine (proj1 (history_same _ _ (λ t, ∃ E, HashProof.HI keq hash (N.of_nat ms) t E) (λ _, True) ops _ _ _ _)).
    - intros o t _ [E HI]. pose proof (HashMain.ht_step_ok (H:=dbg) (V:=V) keq hash HL (N.of_nat ms)) as Hst. split.
      + assert (∀ o, (∃ x, (call (ht_step (H:=dbg) keq hash o) t).1 = Val x) → ht_step (H:=dbg) keq hash o t = ht_step (H:=Q) keq hash o t) as Hval.
        { intros o' [x Hx]. eapply mle_call; [apply p_ht_step|done]. }
        destruct (Hst o t E HI) as (E1 & _ & Hs & _).
        destruct o as [k v|k|k|k f|k|k| | | |k|k f|n|fs]; try (apply Hval; inversion Hs; subst; by eexists).
        * destruct (Hst (HGet k) t E HI) as (E2 & _ & Hs' & _). assert (∃ x, (call (ht_step (H:=dbg) keq hash (HGet k)) t).1 = Val x) as [x Hx] by (inversion Hs'; by eexists).
          unfold ht_step, mbind, M_bind, gets, call in Hx |- *. unfold ht_index, mbind, res_bind.
          destruct (ht_get (H:=dbg) keq hash t k) as [y|] eqn:Ey; [|done]. by rewrite <- (rle_val _ _ _ (p_ht_get Q keq hash t k) Ey), Ey.
        * destruct (Hst (HGetMut k f) t E HI) as (E2 & _ & Hs' & _). assert (∃ x, (call (ht_step (H:=dbg) keq hash (HGetMut k f)) t).1 = Val x) as [x Hx] by (inversion Hs'; by eexists).
          unfold ht_step, mbind, M_bind, call in Hx |- *. unfold ht_index_mut, mbind, M_bind.
          destruct (ht_get_mut (H:=dbg) keq hash k f t) as [y s1|] eqn:Ey; [|done]. by rewrite <- (mle_ret _ _ _ _ _ (p_ht_get_mut Q keq hash k f) Ey), Ey.
      + destruct (Hst o t E HI) as (E' & HI' & _). by exists E'.
    - by apply Forall_true.
    - exists []. by eapply HashMain.ht_new_ok.
  Qed.
End ht.

Section dq.
  Context (Q : Profile) {T : Type}.
  Lemma dq_step_same cap (d : deque T) o s :
    DequeProof.DSim cap s d → s.2 + 1 < W64 → dq_step (H:=dbg) o d = dq_step (H:=Q) o d.
  Proof.
    intros Hd Hl. destruct (DequeProof.dq_step_sim (H:=dbg) cap o s d Hd) as [H1 _]; [by intros _|].
    destruct (dq_spec cap o s).1 as [x|e] eqn:Es; [eapply mle_call; [apply p_dq_step|done]|].
    destruct Hd as (Hsq & es & Hok & Hes). destruct s as [l n]. simpl in Hes.
    assert (lengthN l = lengthN es) as Hlen by (rewrite <- Hes; unfold lengthN; by rewrite map_length).
    assert (¬ lengthN l < cap → lengthN es = cap) as Hf.
    { intros Hge. destruct Hok as [Hh _ _]. apply AllocProof.CH_len_le in Hh. rewrite DequeProof.dseg_length in Hh. lia. }
    destruct o; simpl in Es; try (repeat case_match; done).
    - destruct (decide (lengthN l < cap)) as [|Hge]; [done|]. apply Hf in Hge. unfold dq_step, mbind, M_bind.
      destruct (DequeProof.push_full (H:=dbg) cap d es v Hok Hge) as [_ ->]. by destruct (DequeProof.push_full (H:=Q) cap d es v Hok Hge) as [_ ->].
    - destruct (decide (lengthN l < cap)) as [|Hge]; [done|]. apply Hf in Hge. unfold dq_step, mbind, M_bind.
      destruct (DequeProof.push_full (H:=dbg) cap d es v Hok Hge) as [-> _]. by destruct (DequeProof.push_full (H:=Q) cap d es v Hok Hge) as [-> _].
  Qed.
  Lemma dq_profiles ms (v : T) ops :
    N.of_nat ms + 1 < W32 → lengthN ops < W64 →
    history (dq_step (H:=dbg)) ops (dq_new ms v) = history (dq_step (H:=Q)) ops (dq_new ms v).
  Proof.
    intros Hw. assert (∀ s (d : deque T) ops, DequeProof.DSim (N.of_nat ms) s d → s.2 + lengthN ops < W64 →
      history (dq_step (H:=dbg)) ops d = history (dq_step (H:=Q)) ops d) as Hall.
    { clear ops. intros s d ops. revert s d. induction ops as [|o ops IH]; intros s d Hd Hl; [done|]. rewrite lengthN_cons in Hl. simpl.
      destruct (DequeProof.dq_step_sim (H:=dbg) (N.of_nat ms) o s d Hd) as [H1 H2]; [intros _; lia|].
      rewrite <- (call_ext _ _ _ (dq_step_same _ d o s Hd ltac:(lia))). destruct (call (dq_step o) d) as [r d']. simpl in H2.
      rewrite (IH _ d' H2); [done|]. pose proof (DequeProof.dq_spec_count (N.of_nat ms) o s). lia. }
    intros Hl. apply (Hall ([], 0)); [|simpl; lia]. split; [done|]. exists []. split; [by apply DequeProof.dq_new_ok|done].
  Qed.
End dq.

Section al.
  Context (Q : Profile) {T : Type}.
  Lemma al_step_same ms nr (d : T) a live o :
    N.of_nat ms + 1 < W32 → pool (H:=dbg) ms nr d a live → al_pre nr live o → al_step (H:=dbg) o a = al_step (H:=Q) o a.
  Proof.
    intros Hw Hp Hpre. destruct (AllocPoolProof.no_failure (H:=dbg) ms nr d Hw a live o Hp Hpre) as [(v & -> & Hl)|(r & a' & He)].
    - apply AllocPoolProof.pool_inv in Hp; [|done]. unfold al_step, mbind, M_bind.
      rewrite (AllocPoolProof.PInv_full (H:=dbg) _ _ _ _ v Hp Hl). by rewrite (AllocPoolProof.PInv_full (H:=Q) _ _ _ _ v Hp Hl).
    - eapply mle_ret; [apply p_al_step|exact He].
  Qed.
  Lemma al_profiles ms nr (d : T) a live :
    N.of_nat ms + 1 < W32 →
    (pool (H:=dbg) ms nr d a live ↔ pool (H:=Q) ms nr d a live) ∧
    (pool (H:=dbg) ms nr d a live → ∀ o, al_pre nr live o → al_step (H:=dbg) o a = al_step (H:=Q) o a).
  Proof.
    intros Hw. split; [|intros ??; by eapply al_step_same]. split.
    - induction 1 as [a Ha|a live o Hp IH Hpre]; [by constructor|].
      rewrite (call_ext _ _ _ (al_step_same _ _ _ _ _ _ Hw Hp Hpre)). by constructor.
    - induction 1 as [a Ha|a live o Hp IH Hpre]; [by constructor|].
      rewrite <- (call_ext _ _ _ (al_step_same _ _ _ _ _ _ Hw IH Hpre)). by constructor.
  Qed.
End al.
