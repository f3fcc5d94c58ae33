(** * C70: overwriting keys — proofs for the red-black tree; the lemmas all containers share *)
From Verif Require Import Spec RBMain SearchProof.
From Verif Require Export RekeyModel.

Section sim.
  Context {S Op Out K V : Type} (R : Op → list (K * V) → res Out → list (K * V) → Prop) (same : K → K → bool) (fits : K → K → K → bool).
  Context (step : Op → M S Out) (addr : S → K → res N) (node : S → N → res (K * V)) (set_key : N → K → M S ()).
  Context (good : kop Op K → Prop) (I : S → list (K * V) → Prop).
  Context (Hcall : ∀ o s l, good (KCall o) → I s l → ∃ l', R o l (call (step o) s).1 l' ∧ I (call (step o) s).2 l').
  Context (Hkey : ∀ k k' s l, good (KKey k k') → I s l → may_rekey same fits l k k' = true →
    ∃ i kv s', addr s k = Val i ∧ node s i = Val kv ∧ set_key i k' s = Ret () s' ∧ kv ∈ l ∧ same kv.1 k = true ∧ I s' (rekeyed same k k' l)).

  Lemma k_run_ok ops s l : Forall good ops → I s l → k_run R same fits ops l (history (k_step step addr node set_key) ops s).1.
  Proof using Hcall Hkey.
    intros Hg. revert s l. induction Hg as [|o ops Ho Hg IH]; intros s l Hi; [constructor|].
    cbn [history]. destruct o as [o|k k'].
    - destruct (Hcall o s l Ho Hi) as (l' & Hr & Hi').
      assert (call (k_step step addr node set_key (KCall o)) s = (kans_of (call (step o) s).1, (call (step o) s).2)) as ->.
      { unfold call. cbn [k_step]. unfold mbind, M_bind. by destruct (step o s). }
      cbv iota beta. specialize (IH _ _ Hi'). destruct (history _ ops _) as [rs s']. cbn [fst] in *. by eapply kr_call.
    - destruct (may_rekey same fits l k k') eqn:Hm; [|by apply kr_else].
      destruct (Hkey k k' s l Ho Hi Hm) as (i & kv & s' & Ha & Hn & Hs & Hin & Hk & Hi').
      assert (call (k_step step addr node set_key (KKey k k')) s = (Val (KWas kv), s')) as ->.
      { unfold call. cbn [k_step]. unfold mbind, M_bind, gets. rewrite Ha. cbn. rewrite Hn. cbn. by rewrite Hs. }
      cbv iota beta. specialize (IH _ _ Hi'). destruct (history _ ops _) as [rs s'']. cbn [fst] in *. by eapply kr_key.
  Qed.
End sim.

Section order.
  Context {K V : Type} (cmp : K → K → comparison) (HO : OrdLaws cmp).
  Implicit Types l A B : list (K * V).
  Lemma eq_of_below k A : below cmp k A → Forall (λ x, eq_of cmp x.1 k = false ∧ cmp x.1 k = Lt) A.
  Proof using HO. unfold below. intros Hf. eapply Forall_impl; [exact Hf|]. intros x Hx. cbv beta in *.
    assert (cmp x.1 k = CompOpp (cmp k x.1)) as Hs by apply (cmp_sym cmp HO). rewrite Hx in Hs. unfold eq_of. by rewrite Hs. Qed.
  Lemma eq_of_above k B : above cmp k B → Forall (λ x, eq_of cmp x.1 k = false ∧ cmp x.1 k = Gt) B.
  Proof using HO. unfold above. intros Hf. eapply Forall_impl; [exact Hf|]. intros x Hx. cbv beta in *.
    assert (cmp x.1 k = CompOpp (cmp k x.1)) as Hs by apply (cmp_sym cmp HO). rewrite Hx in Hs. unfold eq_of. by rewrite Hs. Qed.
  Lemma rekeyed_others same (k k' : K) A : Forall (λ x, same x.1 k = false) A → rekeyed (V:=V) same k k' A = A.
  Proof. clear HO. induction 1 as [|x A Hx _ IH]; [done|]. unfold rekeyed in *. rewrite map_cons, IH. cbv beta. by rewrite Hx. Qed.
  Lemma rekeyed_split k k' A kv B :
    below cmp k A → above cmp k B → cmp k kv.1 = Eq →
    rekeyed (eq_of cmp) k k' (A ++ kv :: B) = A ++ (k', kv.2) :: B ∧ eq_of cmp kv.1 k = true.
  Proof using HO.
    intros Hb Ha Hk. assert (eq_of cmp kv.1 k = true) as He. { unfold eq_of. rewrite (cmp_sym cmp HO), Hk. done. }
    split; [|done]. unfold rekeyed. rewrite map_app, map_cons, He. f_equal; [|f_equal]; apply (rekeyed_others (eq_of cmp)).
    - eapply Forall_impl; [by apply eq_of_below|]. by intros x [? _].
    - eapply Forall_impl; [by apply eq_of_above|]. by intros x [? _].
  Qed.
  Lemma rekeyed_asc k k' A kv B :
    below cmp k A → above cmp k B → ascending cmp (A ++ kv :: B) → may_rekey (eq_of cmp) (fits_order cmp) (A ++ kv :: B) k k' = true →
    ascending cmp (A ++ (k', kv.2) :: B).
  Proof using HO.
    intros Hb Ha Has [_ Hf]%andb_prop. rewrite forallb_forall in Hf.
    assert (∀ x, x ∈ A → cmp x.1 k' = Lt) as HA.
    { intros x Hx. pose proof (eq_of_below _ _ Hb) as H1. rewrite Forall_forall in H1. destruct (H1 x Hx) as [H2 H3].
      specialize (Hf x ltac:(apply elem_of_list_In; set_solver)). unfold fits_order in Hf. rewrite H2 in Hf. apply bool_decide_eq_true in Hf. congruence. }
    assert (∀ x, x ∈ B → cmp k' x.1 = Lt) as HB.
    { intros x Hx. pose proof (eq_of_above _ _ Ha) as H1. rewrite Forall_forall in H1. destruct (H1 x Hx) as [H2 H3].
      specialize (Hf x ltac:(apply elem_of_list_In; set_solver)). unfold fits_order in Hf. rewrite H2 in Hf. apply bool_decide_eq_true in Hf.
      rewrite (cmp_sym cmp HO), Hf, H3. done. }
    apply ascending_app in Has as (H1 & H2 & H3). apply (ascending_app cmp). split_and!; [done| |].
    - unfold ascending in *. apply StronglySorted_inv in H2 as [H2 H4]. constructor; [done|]. apply Forall_forall. intros x Hx. by apply HB.
    - intros x y Hx [->|Hy]%elem_of_cons; [by apply HA|]. apply H3; [done|]. by right.
  Qed.
  Lemma may_present same fits l (k k' : K) : may_rekey (V:=V) same fits l k k' = true → ∃ kv, kv ∈ l ∧ same kv.1 k = true.
  Proof. clear HO. intros [(kv & Hin & Hk)%existsb_exists _]%andb_prop. exists kv. split; [by apply elem_of_list_In|done]. Qed.
  (** the entry that is overwritten *)
  Lemma get_rel_rekey (E : list (N * (K * V))) k k' i kvo fits :
    get_rel cmp k E i kvo → may_rekey (eq_of cmp) fits E.*2 k k' = true →
    ∃ (A B : list (N * (K * V))) kv, kvo = Some kv ∧ E = A ++ (i, kv) :: B ∧ i ≠ 0 ∧ cmp k kv.1 = Eq ∧ below cmp k A.*2 ∧ above cmp k B.*2.
  Proof using HO.
    intros Hg Hm. destruct Hg as [A B i kv HE Hnz Hk Hb Ha|A B -> Hb Ha]; [by exists A, B, kv|]. exfalso.
    apply may_present in Hm as (kv & Hin & Hk). rewrite fmap_app in Hin. apply eq_of_below in Hb. apply eq_of_above in Ha.
    rewrite Forall_forall in Hb, Ha. apply elem_of_app in Hin as [Hin|Hin]; [destruct (Hb _ Hin)|destruct (Ha _ Hin)]; congruence.
  Qed.
End order.

Lemma split_unique {X} (A B C D : list (N * X)) i (a b : X) :
  NoDup (A ++ (i, a) :: B).*1 → A ++ (i, a) :: B = C ++ (i, b) :: D → A = C ∧ B = D.
Proof.
  revert C. induction A as [|[j x] A IH]; intros [|[j' y] C] Hnd He; cbn [app] in He; simplify_eq; try done.
  - exfalso. cbn in Hnd. apply NoDup_cons in Hnd as [Hn _]. apply Hn. rewrite fmap_app, fmap_cons. set_solver.
  - exfalso. cbn in Hnd. apply NoDup_cons in Hnd as [Hn _]. apply Hn. rewrite fmap_app, fmap_cons. set_solver.
  - cbn in Hnd. apply NoDup_cons in Hnd as [_ Hnd]. destruct (IH C) as [-> ->]; done.
Qed.

Section rb.
  Context `{Profile} {K V : Type} (cmp : K → K → comparison) (HO : OrdLaws cmp) (cap : N).
  Notation I t l := (∃ U, rbok cmp cap t U ∧ (entries U).*2 = l).
  Lemma rb_rekey_ok k k' (t : rbt K V) l :
    I t l → may_rekey (eq_of cmp) (fits_order cmp) l k k' = true →
    ∃ i kv t', rb_get_addr cmp t k = Val i ∧ rb_get_node t i = Val kv ∧ rb_set_node_key i k' t = Ret () t' ∧
      kv ∈ l ∧ eq_of cmp kv.1 k = true ∧ I t' (rekeyed (eq_of cmp) k k' l).
  Proof using HO.
    intros (U & Hok & <-) Hm. pose proof Hok as [HR Hb Ha].
    destruct (rb_addr_ok cmp HO cap t U k Hok) as (i & kvo & Hg & Had & _).
    destruct (get_rel_rekey _ HO _ _ _ _ _ _ Hg Hm) as (A & B & kv & -> & HE & Hnz & Hk & HA & HB).
    assert ((i, kv) ∈ entries U) as Hin by (rewrite HE; set_solver).
    pose proof (rep_NoDup _ _ _ HR) as Hnd.
    destruct (entries_focus U i kv Hin) as (ctx & m & l & r & ->).
    pose proof (rep_node _ _ _ ctx _ _ _ _ _ HR eq_refl) as Hnode.
    assert (wp (rb_set_node_key i k') t (λ _ t', rep cap t' (plug ctx (Nd m l i (k', kv.2) r)))) as Hw.
    { destruct HR as [Hc Hr]. unfold rb_set_node_key. apply R_on.
      eapply (CH_set_pair rgrb cap _ ctx m l i kv r (k', kv.2)); [exact Hc|by intros n <-|]. intros a' Hc'.
      split; [done|]. simpl. rewrite Hr, !root_plug. done. }
    apply wp_elim in Hw as ([] & t' & Hs & HR').
    destruct (rekeyed_split cmp HO k k' A.*2 kv B.*2 HA HB Hk) as [Hre Heq].
    assert ((entries (plug ctx (Nd m l i (k', kv.2) r))) = A ++ (i, (k', kv.2)) :: B) as He'.
    { rewrite entries_plug in HE, Hnd |- *. cbn [entries] in HE, Hnd |- *. rewrite <- app_assoc in HE, Hnd |- *. rewrite app_assoc in HE, Hnd |- *.
      cbn [app] in HE, Hnd |- *. destruct (split_unique _ _ _ _ _ _ _ Hnd HE) as [-> ->]. done. }
    exists i, kv, t'. split_and!; [done|done|done| |done|].
    - rewrite HE, fmap_app, fmap_cons. set_solver.
    - exists (plug ctx (Nd m l i (k', kv.2) r)). split.
      + split; [done|eapply balanced_same; [apply same_plug|done]|]. rewrite He', fmap_app, fmap_cons. cbn [snd].
        rewrite HE, fmap_app, fmap_cons in Ha, Hm. cbn [snd] in Ha, Hm. by eapply rekeyed_asc.
      + rewrite He', HE, !fmap_app, !fmap_cons. cbn [snd]. done.
  Qed.
  Lemma rb_rekey_run ops (t : rbt K V) l :
    0 < cap → I t l →
    k_run (λ o l r l', om_spec cmp cap o l = (r, l')) (eq_of cmp) (fits_order cmp) ops l
      (history (k_step (om_step (rb_api cmp)) (rb_get_addr cmp) rb_get_node rb_set_node_key) ops t).1.
  Proof using HO.
    intros Hc Hi. apply (k_run_ok _ _ _ _ _ _ _ (λ _, True) (λ t l, I t l)); [| |by apply Forall_true|done].
    - intros o s l0 _ (U & Hok & <-).
      destruct (om_step_ok (rb_api cmp) cmp cap (RBI cmp cap) (rb_om_ok cmp HO cap Hc) o s (entries U)) as (H1 & E' & (U' & Hok' & <-) & HE & _);
        [by exists U|].
      exists (entries U').*2. rewrite H1, HE. split; [by destruct (om_spec cmp cap o (entries U).*2)|]. by exists U'.
    - intros k k' s l0 _. apply rb_rekey_ok.
  Qed.
End rb.
