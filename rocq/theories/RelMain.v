(** * Data independence: histories, renaming of keys, the structural tests *)
From Verif Require Import IterProof RelProof.
From Verif Require Export StructModel.

(** ** Initial states *)
Lemma Forall2_replicate_rel {A A'} (R : A → A' → Prop) n x y : R x y → Forall2 R (replicate n x) (replicate n y).
Proof. intros Hx. induction n; cbn; by constructor. Qed.
Lemma al_new_rel {T T'} (R : T → T' → Prop) ms nr d d' :
  R d d' → alr R (Alloc 0 1 1 (replicate ms (node_default nr d))) (Alloc 0 1 1 (replicate ms (node_default nr d'))).
Proof. intros Hd. repeat split. by apply Forall2_replicate_rel. Qed.

Section histories.
  Context `{Profile}.
  Lemma al_hist {T T'} (R : T → T' → Prop) ms nr d d' a a' ops ops' :
    R d d' → na_default ms nr d = Some a → na_default ms nr d' = Some a' → Forall2 (al_op_rel R) ops ops' →
    Forall2 (rrel (al_out_rel R)) (history al_step ops a).1 (history al_step ops' a').1 ∧
    alr R (history al_step ops a).2 (history al_step ops' a').2.
  Proof.
    intros Hd Ha Ha' Ho. apply (history_rel (alr R) (al_op_rel R)); [apply l_al_step|done|].
    unfold na_default in *. destruct nr; [done|]. injection Ha as <-. injection Ha' as <-. by apply al_new_rel.
  Qed.
  Lemma dq_hist {T T'} (R : T → T' → Prop) ms d d' ops ops' :
    R d d' → Forall2 (dq_op_rel R) ops ops' →
    Forall2 (rrel (dq_out_rel R)) (history dq_step ops (dq_new ms d)).1 (history dq_step ops' (dq_new ms d')).1 ∧
    dqr R (history dq_step ops (dq_new ms d)).2 (history dq_step ops' (dq_new ms d')).2.
  Proof.
    intros Hd Ho. apply (history_rel (dqr R) (dq_op_rel R)); [apply l_dq_step|done|]. split; [done|]. split; [done|]. split; [done|]. by apply al_new_rel.
  Qed.
  Lemma cb_hist {V V'} (RV : V → V' → Prop) nn ms d d' t t' ops ops' :
    RV d d' → cb_new nn ms d = Some t → cb_new nn ms d' = Some t' → Forall2 (om_op_rel eq RV) ops ops' →
    Forall2 (rrel (om_out_rel eq RV)) (history cb_step ops t).1 (history cb_step ops' t').1 ∧
    cbr RV (history cb_step ops t).2 (history cb_step ops' t').2.
  Proof.
    intros Hd Ht Ht' Ho. apply (history_rel (cbr RV) (om_op_rel eq RV)); [apply l_cb_om|done|].
    unfold cb_new in *. destruct (decide (2 * ms ≤ nn)%nat); [|done]. injection Ht as <-. injection Ht' as <-.
    split; [done|]. split; [done|]. by apply al_new_rel.
  Qed.
  Section maps.
    Context {K K' V V' : Type} (RK : K → K' → Prop) (RV : V → V' → Prop).
    Lemma rb_hist cmp cmp' ms d d' ops ops' :
      (∀ a a' b b', RK a a' → RK b b' → cmp a b = cmp' a' b') → prel RK RV d d' → Forall2 (orel (om_op_rel RK RV)) ops ops' →
      Forall2 (rrel (om_out_rel RK RV)) (history (rb_step cmp) ops (rb_new ms d)).1 (history (rb_step cmp') ops' (rb_new ms d')).1 ∧
      rbr RK RV (history (rb_step cmp) ops (rb_new ms d)).2 (history (rb_step cmp') ops' (rb_new ms d')).2.
    Proof.
      intros Hc Hd Ho. apply (history_rel (rbr RK RV) (orel (om_op_rel RK RV))); [by apply l_rb_step|done|]. split; [done|]. by apply al_new_rel.
    Qed.
    Lemma av_hist pcmp pcmp' ms d d' ops ops' :
      (∀ a a' b b', RK a a' → RK b b' → po_cmp pcmp a b = po_cmp pcmp' a' b') → prel RK RV d d' → Forall2 (om_op_rel RK RV) ops ops' →
      Forall2 (rrel (om_out_rel RK RV)) (history (av_step pcmp) ops (av_new ms d)).1 (history (av_step pcmp') ops' (av_new ms d')).1 ∧
      avr RK RV (history (av_step pcmp) ops (av_new ms d)).2 (history (av_step pcmp') ops' (av_new ms d')).2.
    Proof.
      intros Hc Hd Ho. apply (history_rel (avr RK RV) (om_op_rel RK RV)); [by apply l_av_om|done|]. split; [done|]. by apply al_new_rel.
    Qed.
    Lemma ht_hist keq keq' hash hash' nb ms d d' h h' ops ops' :
      (∀ a a' b b', RK a a' → RK b b' → keq a b = keq' a' b') → (∀ a a', RK a a' → hash a = hash' a') → prel RK RV d d' →
      ht_new nb ms d = Some h → ht_new nb ms d' = Some h' → Forall2 (hm_op_rel RK RV) ops ops' →
      Forall2 (rrel (hm_out_rel RK RV)) (history (ht_step keq hash) ops h).1 (history (ht_step keq' hash') ops' h').1 ∧
      htr RK RV (history (ht_step keq hash) ops h).2 (history (ht_step keq' hash') ops' h').2.
    Proof.
      intros Hc Hh Hd Hn Hn' Ho. apply (history_rel (htr RK RV) (hm_op_rel RK RV)); [by apply (l_ht_step RK RV keq keq' hash hash' RK)|done|].
      unfold ht_new in *. destruct (decide (Nat.modulo nb 2 = 0%nat)); [|done]. injection Hn as <-. injection Hn' as <-.
      split; [done|]. by apply al_new_rel.
    Qed.
    (** [insert] returns the same address *)
    Lemma rb_insert_addr cmp cmp' k k' v v' t t' :
      (∀ a a' b b', RK a a' → RK b b' → cmp a b = cmp' a' b') → RK k k' → RV v v' → rbr RK RV t t' →
      (call (rb_insert cmp k v) t).1 = (call (rb_insert cmp' k' v') t').1.
    Proof.
      intros Hc Hk Hv Ht. pose proof (l_rb_insert RK RV cmp cmp' Hc k k' v v' Hk Hv t t' Ht) as Hi. unfold call.
      destruct (rb_insert cmp k v t), (rb_insert cmp' k' v' t'); try done; destruct Hi as [-> _]; done.
    Qed.
    Lemma av_insert_addr pcmp pcmp' k k' v v' t t' :
      (∀ a a' b b', RK a a' → RK b b' → po_cmp pcmp a b = po_cmp pcmp' a' b') → RK k k' → RV v v' → avr RK RV t t' →
      (call (av_insert pcmp k v) t).1 = (call (av_insert pcmp' k' v') t').1.
    Proof.
      intros Hc Hk Hv Ht. pose proof (l_av_insert RK RV pcmp pcmp' Hc k k' v v' Hk Hv t t' Ht) as Hi. unfold call.
      destruct (av_insert pcmp k v t), (av_insert pcmp' k' v' t'); try done; destruct Hi as [-> _]; done.
    Qed.
    Lemma ht_insert_addr keq keq' hash hash' k k' v v' t t' :
      (∀ a a' b b', RK a a' → RK b b' → keq a b = keq' a' b') → (∀ a a', RK a a' → hash a = hash' a') → RK k k' → RV v v' → htr RK RV t t' →
      (call (ht_insert keq hash k v) t).1 = (call (ht_insert keq' hash' k' v') t').1.
    Proof.
      intros Hc Hh Hk Hv Ht. pose proof (l_ht_insert RK RV keq keq' hash hash' RK (λ _ _ Hx, Hx) Hc Hh k k' v v' Hk Hv t t' Ht) as Hi. unfold call.
      destruct (ht_insert keq hash k v t), (ht_insert keq' hash' k' v' t'); try done; destruct Hi as [-> _]; done.
    Qed.
  End maps.
  Lemma cb_insert_addr {V V'} (RV : V → V' → Prop) k v v' t t' :
    RV v v' → cbr RV t t' → (call (cb_insert k v) t).1 = (call (cb_insert k v') t').1.
  Proof.
    intros Hv Ht. pose proof (l_cb_insert RV k v v' Hv t t' Ht) as Hi. unfold call.
    destruct (cb_insert k v t), (cb_insert k v' t'); try done; destruct Hi as [-> _]; done.
  Qed.
End histories.

(** ** Keys may be taken to be numbers *)
Section mono.
  Context {K K' V V' : Type} (RK QK : K → K' → Prop) (RV : V → V' → Prop) (Himp : ∀ a b, RK a b → QK a b).
  Lemma prel_mono x y : prel RK RV x y → prel QK RV x y.
  Proof using Himp. intros [Hk Hv]. split; auto. Qed.
  Lemma alr_mono a a' : alr (prel RK RV) a a' → alr (prel QK RV) a a'.
  Proof using Himp.
    intros (?&?&?&Hn). repeat split; try done. eapply Forall2_impl; [exact Hn|]. intros n n' [Hr Hv]. split; [done|]. by apply prel_mono.
  Qed.
  Lemma rbr_mono t t' : rbr RK RV t t' → rbr QK RV t t'.
  Proof using Himp. intros [? Ha]. split; [done|]. by apply alr_mono. Qed.
  Lemma avr_mono t t' : avr RK RV t t' → avr QK RV t t'.
  Proof using Himp. intros [? Ha]. split; [done|]. by apply alr_mono. Qed.
  Lemma htr_mono t t' : htr RK RV t t' → htr QK RV t t'.
  Proof using Himp. intros [? Ha]. split; [done|]. by apply alr_mono. Qed.
  Lemma opt_mono o o' : orel (prel RK RV) o o' → orel (prel QK RV) o o'.
  Proof using Himp. destruct o, o'; try done. apply prel_mono. Qed.
  Lemma out_mono o o' : rrel (om_out_rel RK RV) o o' → rrel (om_out_rel QK RV) o o'.
  Proof using Himp.
    destruct o as [o|], o' as [o'|]; try done. cbn. destruct o, o'; try done; cbn; [apply opt_mono|].
    intros Hl. eapply Forall2_impl; [exact Hl|]. apply opt_mono.
  Qed.
  Lemma hout_mono o o' : rrel (hm_out_rel RK RV) o o' → rrel (hm_out_rel QK RV) o o'.
  Proof using Himp.
    destruct o as [o|], o' as [o'|]; try done. cbn. destruct o, o'; try done; cbn.
    intros Hl. eapply Forall2_impl; [exact Hl|]. apply opt_mono.
  Qed.
End mono.
Lemma script_refl {V} (sc : list (fb * (V → V))) : Forall2 (prel eq (frel eq)) sc sc.
Proof. induction sc; constructor; [|done]. split; [done|]. intros x y ->. done. Qed.
Lemma fs_refl {V} (fs : list (V → V)) : Forall2 (frel eq) fs fs.
Proof. induction fs; constructor; [|done]. intros x y ->. done. Qed.
Lemma rename_rel {K K' V} (f : K → K') (l : list K) (o : om_op K V) :
  om_key o ⊆ l → om_op_rel (λ k n, k ∈ l ∧ n = f k) eq o (om_rename f o).
Proof.
  intros Hl. destruct o; cbn in *; try done; repeat split; try (apply Hl; left); try done; try apply script_refl; intros x y ->; done.
Qed.
Lemma hrename_rel {K K' V} (f : K → K') (l : list K) (o : hm_op K V) :
  hm_key o ⊆ l → hm_op_rel (λ k n, k ∈ l ∧ n = f k) eq o (hm_rename f o).
Proof.
  intros Hl. destruct o; cbn in *; try done; repeat split; try (apply Hl; left); try done; try apply fs_refl; intros x y ->; done.
Qed.

Section rank.
  Context {K : Type} (cmp : K → K → comparison) (HO : OrdLaws cmp).
  Definition rank (l : list K) (k : K) : N := lengthN (filter (λ x, cmp x k = Lt) l).
  Lemma cmp_refl' a : cmp a a = Eq.
  Proof using HO. pose proof (cmp_sym _ HO a a) as Hs. destruct (cmp a a); done. Qed.
  Lemma rank_lt l a b : a ∈ l → cmp a b = Lt → rank l a < rank l b.
  Proof using HO.
    intros Ha Hab. unfold rank, lengthN.
    assert (∀ l, (length (filter (λ x, cmp x a = Lt) l) ≤ length (filter (λ x, cmp x b = Lt) l))%nat) as Hle.
    { clear l Ha. intros l. induction l as [|x l IH]; [done|]. rewrite !filter_cons.
      destruct (decide (cmp x a = Lt)) as [Hx|]; [rewrite decide_True by (by apply (cmp_trans _ HO x a b)); cbn; lia|].
      destruct (decide (cmp x b = Lt)); cbn; lia. }
    induction l as [|x l IH]; [by apply elem_of_nil in Ha|]. rewrite !filter_cons. apply elem_of_cons in Ha as [<-|Ha].
    - rewrite decide_False by (by rewrite cmp_refl'). rewrite decide_True by done. specialize (Hle l). cbn. lia.
    - specialize (IH Ha). destruct (decide (cmp x a = Lt)) as [Hx|]; [rewrite decide_True by (by apply (cmp_trans _ HO x a b)); cbn; lia|].
      destruct (decide (cmp x b = Lt)); cbn; lia.
  Qed.
  Lemma cmp_eq_r a b x : cmp a b = Eq → cmp x a = cmp x b.
  Proof using HO. intros Hab. rewrite (cmp_sym _ HO a x), (cmp_sym _ HO b x). by rewrite (cmp_eq _ HO a b x Hab). Qed.
  Lemma rank_eq l a b : cmp a b = Eq → rank l a = rank l b.
  Proof using HO.
    intros Hab. unfold rank. f_equal. apply list_filter_iff. intros x. by rewrite (cmp_eq_r a b x Hab).
  Qed.
  Lemma rank_cmp l a b : a ∈ l → b ∈ l → cmp a b = N.compare (rank l a) (rank l b).
  Proof using HO.
    intros Ha Hb. destruct (cmp a b) eqn:Hab; symmetry.
    - apply N.compare_eq_iff. by apply rank_eq.
    - apply N.compare_lt_iff. by apply rank_lt.
    - apply N.compare_gt_iff. apply rank_lt; [done|]. by rewrite (cmp_sym _ HO a b), Hab.
  Qed.
End rank.

Section numbers.
  Context `{Profile} {K V : Type}.
  Lemma rb_numbers (cmp : K → K → comparison) ms (d : K * V) ops : OrdLaws cmp →
    ∃ f : K → N,
      Forall2 (rrel (om_out_rel (λ k n, n = f k) eq))
        (history (rb_step cmp) ops (rb_new ms d)).1 (history (rb_step N.compare) (map (option_map (om_rename f)) ops) (rb_new ms (f d.1, d.2))).1 ∧
      rbr (λ k n, n = f k) eq
        (history (rb_step cmp) ops (rb_new ms d)).2 (history (rb_step N.compare) (map (option_map (om_rename f)) ops) (rb_new ms (f d.1, d.2))).2.
  Proof.
    intros HO. set (l := d.1 :: (ops ≫= λ o, match o with Some o => om_key o | None => [] end)). exists (rank cmp l).
    destruct (rb_hist (λ k n, k ∈ l ∧ n = rank cmp l k) eq cmp N.compare ms d (rank cmp l d.1, d.2) ops
                (map (option_map (om_rename (rank cmp l))) ops)) as [Ha Hs].
    - intros a a' b b' [Ha ->] [Hb ->]. by apply rank_cmp.
    - split; [|done]. split; [left|done].
    - assert (∀ o, Some o ∈ ops → om_key o ⊆ l) as Hin.
      { intros o Ho k Hk. right. apply elem_of_list_bind. by exists (Some o). }
      clearbody l. induction ops as [|o ops IH]; [constructor|]. cbn. constructor; [|apply IH; intros o' Ho'; apply Hin; by right].
      destruct o as [o|]; [|done]. apply rename_rel. apply Hin. left.
    - split; [|revert Hs; apply rbr_mono; by intros a b []].
      eapply Forall2_impl; [exact Ha|]. intros x y. apply out_mono. by intros a b [].
  Qed.
  Lemma av_numbers (pcmp : K → K → option comparison) ms (d : K * V) ops : OrdLaws (po_cmp pcmp) →
    let lt := λ a b, Some (N.compare a b) in
    ∃ f : K → N,
      Forall2 (rrel (om_out_rel (λ k n, n = f k) eq))
        (history (av_step pcmp) ops (av_new ms d)).1 (history (av_step lt) (map (om_rename f) ops) (av_new ms (f d.1, d.2))).1 ∧
      avr (λ k n, n = f k) eq
        (history (av_step pcmp) ops (av_new ms d)).2 (history (av_step lt) (map (om_rename f) ops) (av_new ms (f d.1, d.2))).2.
  Proof.
    intros HO lt. set (l := d.1 :: (ops ≫= om_key)). exists (rank (po_cmp pcmp) l).
    destruct (av_hist (λ k n, k ∈ l ∧ n = rank (po_cmp pcmp) l k) eq pcmp lt ms d (rank (po_cmp pcmp) l d.1, d.2) ops
                (map (om_rename (rank (po_cmp pcmp) l)) ops)) as [Ha Hs].
    - intros a a' b b' [Ha ->] [Hb ->]. rewrite (rank_cmp (po_cmp pcmp) HO l a b Ha Hb). unfold lt, po_cmp at 3. by destruct (N.compare _ _).
    - split; [|done]. split; [left|done].
    - assert (∀ o, o ∈ ops → om_key o ⊆ l) as Hin.
      { intros o Ho k Hk. right. apply elem_of_list_bind. by exists o. }
      clearbody l. induction ops as [|o ops IH]; [constructor|]. cbn. constructor; [|apply IH; intros o' Ho'; apply Hin; by right].
      apply rename_rel. apply Hin. left.
    - split; [|revert Hs; apply avr_mono; by intros a b []].
      eapply Forall2_impl; [exact Ha|]. intros x y. apply out_mono. by intros a b [].
  Qed.
End numbers.

Section hnumbers.
  Context `{Profile} {K V : Type} (keq : K → K → bool) (hash : K → N) (HL : HashLaws keq hash).
  (** The position of the first equal key *)
  Fixpoint pos (l : list K) (k : K) : N := match l with [] => 0 | x :: l => if keq x k then 0 else N.succ (pos l k) end.
  Fixpoint hash_at (l : list K) (n : N) : N := match l with [] => 0 | x :: l => match n with 0 => hash x | _ => hash_at l (N.pred n) end end.
  Lemma pos_eq l a b : keq a b = true → pos l a = pos l b.
  Proof using HL.
    intros Hab. induction l as [|x l IH]; [done|]. cbn. rewrite IH. assert (keq x a = keq x b) as ->; [|done].
    destruct (keq x a) eqn:Ha, (keq x b) eqn:Hb; try done.
    - by rewrite (keq_trans _ _ HL x a b Ha Hab) in Hb.
    - rewrite (keq_sym _ _ HL) in Hab. by rewrite (keq_trans _ _ HL x b a Hb Hab) in Ha.
  Qed.
  Lemma pos_inj l a b : a ∈ l → b ∈ l → pos l a = pos l b → keq a b = true.
  Proof using HL.
    induction l as [|x l IH]; intros Ha Hb He; [by apply elem_of_nil in Ha|]. cbn in He.
    destruct (keq x a) eqn:Hxa, (keq x b) eqn:Hxb; try lia.
    - rewrite (keq_sym _ _ HL) in Hxa. by apply (keq_trans _ _ HL a x b).
    - apply elem_of_cons in Ha as [<-|Ha]; [by rewrite (keq_refl _ _ HL) in Hxa|].
      apply elem_of_cons in Hb as [<-|Hb]; [by rewrite (keq_refl _ _ HL) in Hxb|]. apply IH; try done. by apply N.succ_inj.
  Qed.
  Lemma pos_keq l a b : a ∈ l → b ∈ l → keq a b = (pos l a =? pos l b).
  Proof using HL.
    intros Ha Hb. destruct (keq a b) eqn:Hab; symmetry.
    - apply N.eqb_eq. by apply pos_eq.
    - apply N.eqb_neq. intros He. by rewrite (pos_inj l a b Ha Hb He) in Hab.
  Qed.
  Lemma pos_hash l a : a ∈ l → hash a = hash_at l (pos l a).
  Proof using HL.
    induction l as [|x l IH]; intros Ha; [by apply elem_of_nil in Ha|]. cbn. destruct (keq x a) eqn:Hx; [symmetry; by apply (hash_keq _ _ HL)|].
    apply elem_of_cons in Ha as [<-|Ha]; [by rewrite (keq_refl _ _ HL) in Hx|].
    rewrite (IH Ha). destruct (N.succ (pos l a)) eqn:Hs; [lia|]. rewrite <- Hs, N.pred_succ. done.
  Qed.
  Lemma ht_numbers nb ms (d : K * V) ops h : ht_new nb ms d = Some h →
    ∃ (f : K → N) (hash' : N → N) h', ht_new nb ms (f d.1, d.2) = Some h' ∧
      Forall2 (rrel (hm_out_rel (λ k n, n = f k) eq))
        (history (ht_step keq hash) ops h).1 (history (ht_step N.eqb hash') (map (hm_rename f) ops) h').1 ∧
      htr (λ k n, n = f k) eq
        (history (ht_step keq hash) ops h).2 (history (ht_step N.eqb hash') (map (hm_rename f) ops) h').2.
  Proof using HL.
    intros Hn. set (l := d.1 :: (ops ≫= hm_key)).
    assert (∃ h', ht_new nb ms (pos l d.1, d.2) = Some h') as [h' Hn'].
    { unfold ht_new in *. destruct (decide (Nat.modulo nb 2 = 0%nat)); [by eexists|done]. }
    exists (pos l), (hash_at l), h'. split; [done|].
    destruct (ht_hist (λ k n, k ∈ l ∧ n = pos l k) eq keq N.eqb hash (hash_at l) nb ms d (pos l d.1, d.2) h h' ops
                (map (hm_rename (pos l)) ops)) as [Ha Hs]; try done.
    - intros a a' b b' [Ha ->] [Hb ->]. by apply pos_keq.
    - intros a a' [Ha ->]. by apply pos_hash.
    - split; [|done]. split; [left|done].
    - assert (∀ o, o ∈ ops → hm_key o ⊆ l) as Hin.
      { intros o Ho k Hk. right. apply elem_of_list_bind. by exists o. }
      clearbody l. clear Hn Hn'. induction ops as [|o ops IH]; [constructor|]. cbn. constructor; [|apply IH; intros o' Ho'; apply Hin; by right].
      apply hrename_rel. apply Hin. left.
    - split; [|revert Hs; apply htr_mono; by intros a b []].
      eapply Forall2_impl; [exact Ha|]. intros x y. apply hout_mono. by intros a b [].
  Qed.
End hnumbers.
