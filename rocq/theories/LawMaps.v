(** * The laws for the three ordered maps (for C88) *)
From Verif Require Import AlikeOrd RBMain AVLMain.
From Verif Require Export LawOm.

(** The specification of RB and AVL *)
Lemma om_not_tight {K V} (cmp : K → K → comparison) cap (o : om_op K V) l : false = false ∨ lengthN l + om_needs o ≤ cap → om_spec cmp cap o l = om_spec cmp cap o l.
Proof. done. Qed.
Lemma om_not_full {K V} (cmp : K → K → comparison) cap (k : K) (v : V) l : false = true → cap ≤ lengthN l → om_spec cmp cap (MInsert k v) l = (Val (MBool false), l).
Proof. done. Qed.

Section both.
  Context {S K V : Type} (P : om_op K V → Prop) (cmp : K → K → comparison) (HO : OrdLaws cmp) (cap : N) (tight : bool).
  Context (step : om_op K V → M S (om_out K V)) (sp : om_op K V → list (K * V) → res (om_out K V) * list (K * V)) (s : S) (l : list (K * V)) (len : N).
  Context (Hsp : ∀ o l, tight = false ∨ lengthN l + om_needs o ≤ cap → sp o l = om_spec cmp cap o l).
  Context (Hfull : ∀ k v l, tight = true → cap ≤ lengthN l → sp (MInsert k v) l = (Val (MBool false), l)).
  Context (Ha : ascending cmp l) (Hlen : len = lengthN l) (Hcap : lengthN l ≤ cap).
  Context (Hs : ∀ o, Forall P o → (history step o s).1 = (spec_history sp o l).1).
  Notation same := (λ a b, cmp a b = Eq).
  Lemma both_law x y : Forall P (x ++ y) → om_law same tight (cap - len) x y → alike (Forall P) step step (history step x s).2 (history step y s).2.
  Proof using All.
    intros [Px Py]%Forall_app Hl. apply (states_alike _ step sp s l); [done|intros o Ho; by split; apply Forall_app|].
    subst len. by apply (law_ok cmp HO cap tight sp Hsp Hfull).
  Qed.
  Lemma both_alone x : Forall P x → apart same om_key x → len + total om_needs x ≤ cap → (history step x s).1 = map (λ o, (call (step o) s).1) x.
  Proof using All.
    intros Px Hx Hl. apply (states_alone (Forall P) step sp s l); [done|done| |].
    - intros o Ho. rewrite Forall_forall in Px. repeat constructor. by apply Px.
    - subst len. by apply (alone_ok cmp HO cap tight sp Hsp).
  Qed.
  Lemma both_perm x y : Forall P x → x ≡ₚ y → apart same om_key x → len + total om_needs x ≤ cap →
    alike (Forall P) step step (history step x s).2 (history step y s).2.
  Proof using All.
    intros Px Hp Hx Hl. assert (Forall P y) as Py by (by rewrite <- Hp).
    apply (states_alike _ step sp s l); [done|intros o Ho; by split; apply Forall_app|].
    subst len. by apply (perm_ok cmp HO cap tight sp Hsp).
  Qed.
End both.
Lemma all_any {O} (o : list O) : Forall (λ _, True) o.
Proof. by apply Forall_true. Qed.
Lemma alike_any {S O A} (step : O → M S A) s s' : alike (Forall (λ _, True)) step step s s' → alike any step step s s'.
Proof. intros Hl o _. apply Hl, all_any. Qed.

Section rb.
  Context `{Profile} {K V : Type} (cmp : K → K → comparison) (ms : nat) (d : K * V).
  Context (HO : OrdLaws cmp) (H0 : (0 < ms)%nat) (Hw : N.of_nat ms + 1 < W32).
  Notation cap := (N.of_nat ms).
  Notation same := (λ a b, cmp a b = Eq).
  Notation step := (om_step (rb_api cmp)).
  Context (o1 : list (option (om_op K V))).
  Notation t := (history (rb_step cmp) o1 (rb_new ms d)).2.
  Lemma rb_from2 : ∃ l, ascending cmp l ∧ rb_len t = lengthN l ∧ lengthN l ≤ cap ∧
    ∀ o, Forall (λ _, True) o → (history step o t).1 = (spec_history (om_spec cmp cap) o l).1.
  Proof using HO H0 Hw.
    destruct (rb_reach cmp HO ms d o1 H0 Hw) as (U & l & Hl & _). destruct (rb_reach' cmp HO ms d o1 l H0 Hw Hl) as (U' & Hok & _ & HI).
    exists (entries U').*2. pose proof (RBMain.Hom (V:=V) cmp HO ms H0) as Hom. split_and!.
    - exact (ok_asc _ _ _ _ Hom _ _ HI).
    - rewrite lengthN_fmap. exact (ok_len _ _ _ _ Hom _ _ HI).
    - rewrite lengthN_fmap. destruct Hok. by eapply RBOps.rep_len_le.
    - intros o _. exact (proj1 (om_history_ok _ _ _ _ Hom o _ _ HI)).
  Qed.
  Lemma rb_law_fact x y : om_law same false (cap - rb_len t) x y → alike any step step (history step x t).2 (history step y t).2.
  Proof using HO H0 Hw.
    destruct rb_from2 as (l & Ha & Hlen & Hc & Hs). intros Hl. apply alike_any.
    apply (both_law (λ _, True) cmp HO cap false step _ _ l (rb_len t) (om_not_tight cmp cap) (om_not_full cmp cap)); try done. apply all_any.
  Qed.
  Lemma rb_alone_fact x : apart same om_key x → rb_len t + total om_needs x ≤ cap → (history step x t).1 = map (λ o, (call (step o) t).1) x.
  Proof using HO H0 Hw.
    destruct rb_from2 as (l & Ha & Hlen & Hc & Hs). intros Hx Hl.
    apply (both_alone (λ _, True) cmp HO cap false step _ _ l (rb_len t) (om_not_tight cmp cap) (om_not_full cmp cap)); try done. apply all_any.
  Qed.
  Lemma rb_perm_fact x y : x ≡ₚ y → apart same om_key x → rb_len t + total om_needs x ≤ cap → alike any step step (history step x t).2 (history step y t).2.
  Proof using HO H0 Hw.
    destruct rb_from2 as (l & Ha & Hlen & Hc & Hs). intros Hp Hx Hl. apply alike_any.
    apply (both_perm (λ _, True) cmp HO cap false step _ _ l (rb_len t) (om_not_tight cmp cap) (om_not_full cmp cap)); try done. apply all_any.
  Qed.
End rb.
Section av.
  Context `{Profile} {K V : Type} (pcmp : K → K → option comparison) (ms : nat) (d : K * V).
  Notation cmp := (po_cmp pcmp).
  Context (HO : OrdLaws cmp) (H0 : (0 < ms)%nat) (Hw : N.of_nat ms + 1 < W32).
  Notation cap := (N.of_nat ms).
  Notation same := (λ a b, cmp a b = Eq).
  Notation step := (av_step pcmp).
  Context (o1 : list (om_op K V)).
  Notation t := (history (av_step pcmp) o1 (av_new ms d)).2.
  Lemma av_from2 : ∃ l, ascending cmp l ∧ av_len t = lengthN l ∧ lengthN l ≤ cap ∧
    ∀ o, Forall (λ _, True) o → (history step o t).1 = (spec_history (om_spec cmp cap) o l).1.
  Proof using HO H0 Hw.
    destruct (av_reach pcmp HO ms d H0 Hw o1) as (U' & Hok & _ & HI).
    exists (entries U').*2. pose proof (AVLMain.Hom (V:=V) pcmp HO ms H0) as Hom. split_and!.
    - exact (ok_asc _ _ _ _ Hom _ _ HI).
    - rewrite lengthN_fmap. exact (ok_len _ _ _ _ Hom _ _ HI).
    - rewrite lengthN_fmap. destruct Hok. by eapply AVLOps.rep_len_le.
    - intros o _. exact (proj1 (om_history_ok _ _ _ _ Hom o _ _ HI)).
  Qed.
  Lemma av_law_fact x y : om_law same false (cap - av_len t) x y → alike any step step (history step x t).2 (history step y t).2.
  Proof using HO H0 Hw.
    destruct av_from2 as (l & Ha & Hlen & Hc & Hs). intros Hl. apply alike_any.
    apply (both_law (λ _, True) cmp HO cap false step _ _ l (av_len t) (om_not_tight cmp cap) (om_not_full cmp cap)); try done. apply all_any.
  Qed.
  Lemma av_alone_fact x : apart same om_key x → av_len t + total om_needs x ≤ cap → (history step x t).1 = map (λ o, (call (step o) t).1) x.
  Proof using HO H0 Hw.
    destruct av_from2 as (l & Ha & Hlen & Hc & Hs). intros Hx Hl.
    apply (both_alone (λ _, True) cmp HO cap false step _ _ l (av_len t) (om_not_tight cmp cap) (om_not_full cmp cap)); try done. apply all_any.
  Qed.
  Lemma av_perm_fact x y : x ≡ₚ y → apart same om_key x → av_len t + total om_needs x ≤ cap → alike any step step (history step x t).2 (history step y t).2.
  Proof using HO H0 Hw.
    destruct av_from2 as (l & Ha & Hlen & Hc & Hs). intros Hp Hx Hl. apply alike_any.
    apply (both_perm (λ _, True) cmp HO cap false step _ _ l (av_len t) (om_not_tight cmp cap) (om_not_full cmp cap)); try done. apply all_any.
  Qed.
End av.
