(** * Containers with the same contents cannot be told apart: ordered maps and deque (for C87) *)
From Verif Require Import SlotMap RBMain AVLMain.
From Verif Require Export MapFacts AlikeSpec.

Lemma read_inj {A} (l l' : list A) : same_read (λ sc, de_spec sc l) (λ sc, de_spec sc l') → l = l'.
Proof.
  intros He. specialize (He (length l + length l')%nat). cbv beta in He. rewrite <- !HashMain.fw_spec_fwd in He.
  rewrite HashMain.fw_spec_all in He. rewrite (Nat.add_comm (length l)), HashMain.fw_spec_all in He.
  apply (f_equal (omap id)) in He. rewrite !omap_app in He.
  assert (∀ l : list A, omap id (map Some l) = l) as H1 by (intros l0; induction l0 as [|x l0 IH]; [done|]; change (x :: omap id (map Some l0) = x :: l0); by rewrite IH).
  assert (∀ n, omap id (replicate n (@None A)) = []) as H2 by (intros n; induction n as [|n IH]; [done|exact IH]).
  by rewrite !H1, !H2, !app_nil_r in He.
Qed.

(** Two states that answer like a specification, from [l] and from [l'] *)
Section om.
  Context {K V S S' : Type} (P : list (om_op K V) → Prop) (step : om_op K V → M S (om_out K V)) (step' : om_op K V → M S' (om_out K V)) (spec : N → om_op K V → list (K * V) → res (om_out K V) * list (K * V))
    (cap cap' : N) (s : S) (s' : S') (l l' : list (K * V)) (it it' : list fb → res (list (option (K * V)))).
  Context (Hc : ∀ cap l, (spec cap MCapacity l).1 = Val (MNum cap)) (Hi : ∀ cap sc l, (spec cap (MIter sc) l).1 = Val (MList (de_spec sc l))).
  Context (HPc : P [MCapacity]) (HPi : ∀ sc, P [MIter sc]).
  Context (Hit : ∀ sc, it sc = Val (de_spec sc l)) (Hit' : ∀ sc, it' sc = Val (de_spec sc l')).
  Context (Ha : ∀ o, P o → (history step o s).1 = (spec_history (spec cap) o l).1) (Ha' : ∀ o, P o → (history step' o s').1 = (spec_history (spec cap') o l').1).
  Lemma one o c (m : list (K * V)) : (spec_history (spec c) [o] m).1 = [(spec c o m).1].
  Proof. cbn [spec_history]. by destruct (spec c o m). Qed.
  Lemma om_alike : alike P step step' s s' ↔ cap = cap' ∧ same_read it it'.
  Proof using All.
    split.
    - intros HA. split.
      + specialize (HA [MCapacity] HPc). rewrite Ha, Ha', !one, !Hc in HA by done. by injection HA.
      + intros n. specialize (HA [MIter (replicate n Fwd)] (HPi _)). rewrite Ha, Ha', !one, !Hi in HA by done. injection HA as HA.
        by rewrite Hit, Hit', HA.
    - intros [<- Hr] o Ho. assert (l = l') as <-; [|by rewrite Ha, Ha'].
      apply read_inj. intros n. specialize (Hr n). cbv beta. rewrite Hit, Hit' in Hr. by injection Hr.
  Qed.
End om.

Section trees.
  Context `{Profile} {K V : Type} (pcmp : K → K → option comparison) (ms : nat) (d : K * V).
  Context (HO : OrdLaws (po_cmp pcmp)) (H0 : (0 < ms)%nat) (Hw : N.of_nat ms + 1 < W32).
  Notation cap := (N.of_nat ms).
  Lemma av_from o1 : ∃ l, (∀ sc, av_iterate (av_after pcmp ms d o1) sc = Val (de_spec sc l)) ∧
    ∀ o, any o → (history (av_step pcmp) o (av_after pcmp ms d o1)).1 = (spec_history (om_spec (po_cmp pcmp) cap) o l).1.
  Proof using HO H0 Hw.
    destruct (av_reach pcmp HO ms d H0 Hw o1) as (U & _ & _ & HI). exists (entries U).*2.
    pose proof (AVLMain.Hom (V:=V) pcmp HO ms H0) as Hom. split.
    - intros sc. exact (ok_iter _ _ _ _ Hom _ _ sc HI).
    - intros o _. exact (proj1 (om_history_ok _ _ _ _ Hom o _ _ HI)).
  Qed.
End trees.
Section rb.
  Context `{Profile} {K V : Type} (cmp : K → K → comparison) (ms : nat) (d : K * V).
  Context (HO : OrdLaws cmp) (H0 : (0 < ms)%nat) (Hw : N.of_nat ms + 1 < W32).
  Notation cap := (N.of_nat ms).
  Lemma rb_from o1 : ∃ l, (∀ sc, rb_iterate (rb_after cmp ms d o1) sc = Val (de_spec sc l)) ∧
    ∀ o, any o → (history (om_step (rb_api cmp)) o (rb_after cmp ms d o1)).1 = (spec_history (om_spec cmp cap) o l).1.
  Proof using HO H0 Hw.
    destruct (rb_reach cmp HO ms d o1 H0 Hw) as (U & l & Hl & _). destruct (rb_reach' cmp HO ms d o1 l H0 Hw Hl) as (U' & _ & _ & HI).
    exists (entries U').*2. pose proof (RBMain.Hom (V:=V) cmp HO ms H0) as Hom. split.
    - intros sc. exact (ok_iter _ _ _ _ Hom _ _ sc HI).
    - intros o _. exact (proj1 (om_history_ok _ _ _ _ Hom o _ _ HI)).
  Qed.
End rb.

Section ord.
  Context `{Profile} {K V : Type} (pcmp : K → K → option comparison) (ms ms' : nat) (d d' : K * V).
  Notation cmp := (po_cmp pcmp).
  Context (HO : OrdLaws cmp) (H0 : (0 < ms)%nat) (Hw : N.of_nat ms + 1 < W32) (H0' : (0 < ms')%nat) (Hw' : N.of_nat ms' + 1 < W32).
  Lemma om_iter_answer {A B} (cmp : A → A → comparison) cap sc (l : list (A * B)) : (om_spec cmp cap (MIter sc) l).1 = Val (MList (de_spec sc l)).
  Proof. done. Qed.
  Lemma om_cap_answer {A B} (cmp : A → A → comparison) cap (l : list (A * B)) : (om_spec cmp cap MCapacity l).1 = Val (MNum cap).
  Proof. done. Qed.
  Lemma av_av_fact o o' :
    alike any (av_step pcmp) (av_step pcmp) (av_after pcmp ms d o) (av_after pcmp ms' d' o') ↔
    ms = ms' ∧ same_read (av_iterate (av_after pcmp ms d o)) (av_iterate (av_after pcmp ms' d' o')).
  Proof using HO H0 Hw H0' Hw'.
    destruct (av_from pcmp ms d HO H0 Hw o) as (l & Hl & Ha). destruct (av_from pcmp ms' d' HO H0' Hw' o') as (l' & Hl' & Ha').
    rewrite (om_alike any _ _ (om_spec cmp) _ _ _ _ l l' _ _ (om_cap_answer cmp) (om_iter_answer cmp) I (λ _, I) Hl Hl' Ha Ha'). rewrite Nat2N.inj_iff. done.
  Qed.
  Lemma rb_av_fact o o' :
    alike any (om_step (rb_api cmp)) (av_step pcmp) (rb_after cmp ms d o) (av_after pcmp ms' d' o') ↔
    ms = ms' ∧ same_read (rb_iterate (rb_after cmp ms d o)) (av_iterate (av_after pcmp ms' d' o')).
  Proof using HO H0 Hw H0' Hw'.
    destruct (rb_from cmp ms d HO H0 Hw o) as (l & Hl & Ha). destruct (av_from pcmp ms' d' HO H0' Hw' o') as (l' & Hl' & Ha').
    rewrite (om_alike any _ _ (om_spec cmp) _ _ _ _ l l' _ _ (om_cap_answer cmp) (om_iter_answer cmp) I (λ _, I) Hl Hl' Ha Ha'). rewrite Nat2N.inj_iff. done.
  Qed.
End ord.
Section rbrb.
  Context `{Profile} {K V : Type} (cmp : K → K → comparison) (ms ms' : nat) (d d' : K * V).
  Context (HO : OrdLaws cmp) (H0 : (0 < ms)%nat) (Hw : N.of_nat ms + 1 < W32) (H0' : (0 < ms')%nat) (Hw' : N.of_nat ms' + 1 < W32).
  Lemma rb_rb_fact o o' :
    alike any (om_step (rb_api cmp)) (om_step (rb_api cmp)) (rb_after cmp ms d o) (rb_after cmp ms' d' o') ↔
    ms = ms' ∧ same_read (rb_iterate (rb_after cmp ms d o)) (rb_iterate (rb_after cmp ms' d' o')).
  Proof using HO H0 Hw H0' Hw'.
    destruct (rb_from cmp ms d HO H0 Hw o) as (l & Hl & Ha). destruct (rb_from cmp ms' d' HO H0' Hw' o') as (l' & Hl' & Ha').
    rewrite (om_alike any _ _ (om_spec cmp) _ _ _ _ l l' _ _ (om_cap_answer cmp) (om_iter_answer cmp) I (λ _, I) Hl Hl' Ha Ha'). rewrite Nat2N.inj_iff. done.
  Qed.
End rbrb.
