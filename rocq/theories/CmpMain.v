(** * The three ordered maps compared with each other (for C45) *)
From Verif Require Import RBMain AVLMain CritMain.
From Verif Require Import RBProps AVLProps CritProps.

(** The specification only depends on the outcome of comparisons *)
Section ext.
  Context {K V : Type} (f g : K → K → comparison) (He : ∀ a b, f a b = g a b).
  Lemma om_find_ext k (l : list (K * V)) : om_find f k l = om_find g k l.
  Proof using He. induction l as [|x l IH]; [done|]. simpl. rewrite He, IH. done. Qed.
  Lemma om_insert_ext k v (l : list (K * V)) : om_insert f k v l = om_insert g k v l.
  Proof using He. induction l as [|x l IH]; [done|]. simpl. rewrite He, IH. done. Qed.
  Lemma om_remove_ext k (l : list (K * V)) : om_remove f k l = om_remove g k l.
  Proof using He. induction l as [|x l IH]; [done|]. simpl. rewrite He, IH. done. Qed.
  Lemma om_alter_ext k h (l : list (K * V)) : om_alter f k h l = om_alter g k h l.
  Proof using He. induction l as [|x l IH]; [done|]. simpl. rewrite He, IH. done. Qed.
  Lemma om_spec_ext cap o (l : list (K * V)) : om_spec f cap o l = om_spec g cap o l.
  Proof using He. destruct o; simpl; unfold om_get; rewrite ?om_find_ext, ?om_insert_ext, ?om_remove_ext, ?om_alter_ext; done. Qed.
  Lemma OrdLaws_ext : OrdLaws f → OrdLaws g.
  Proof using He. intros []. split; intros *; rewrite <- ?He; eauto. Qed.
End ext.

Lemma spec_history_ext {S O A} (f g : O → S → A * S) ops s : (∀ o s, f o s = g o s) → spec_history f ops s = spec_history g ops s.
Proof.
  intros He. revert s. induction ops as [|o ops IH]; intros s; [done|]. simpl. rewrite He. destruct (g o s). by rewrite IH.
Qed.
Lemma spec_history_snoc {S O A} (f : O → S → A * S) ops o s :
  spec_history f (ops ++ [o]) s = ((spec_history f ops s).1 ++ [(f o (spec_history f ops s).2).1], (f o (spec_history f ops s).2).2).
Proof.
  revert s. induction ops as [|p ops IH]; intros s; simpl; [by destruct (f o s)|].
  destruct (f p s) as [r s1]. rewrite IH. by destruct (spec_history f ops s1).
Qed.

Lemma cb_spec_below {V} cap (ops : list (om_op N V)) l :
  (∀ pre k v post, ops = pre ++ MInsert k v :: post →
     let l' := (spec_history (om_spec N.compare cap) pre l).2 in lengthN l' < cap ∨ om_find N.compare k l' = None) →
  spec_history (cb_spec cap) ops l = spec_history (om_spec N.compare cap) ops l.
Proof.
  revert l. induction ops as [|o ops IH]; intros l Hb; [done|].
  assert (cb_spec cap o l = om_spec N.compare cap o l) as He.
  { destruct o as [k v| | | | | | | | | | | | |]; try done. simpl. destruct (decide _) as [Hd|Hd]; [done|].
    destruct (Hb [] k v ops eq_refl) as [Hl|Hf]; simpl in *; [done|]. by rewrite Hf. }
  cbn [spec_history]. rewrite He. destruct (om_spec N.compare cap o l) as [r l1] eqn:E. rewrite IH; [done|].
  intros pre k v post ->. specialize (Hb (o :: pre) k v post eq_refl). cbn [spec_history] in Hb. rewrite E in Hb.
  cbn zeta. by destruct (spec_history _ pre l1).
Qed.

Section main.
  Context `{Profile} {K V : Type} (ms : nat) (H0 : (0 < ms)%nat) (Hw : N.of_nat ms + 1 < W32).
  Notation rb_from cmp d ops := (history (om_step (rb_api cmp)) ops (rb_new ms d)).
  Lemma rb_av_fact cmp pcmp (d d' : K * V) ops :
    OrdLaws cmp → (∀ a b, pcmp a b = Some (cmp a b)) →
    (history (av_step pcmp) ops (av_new ms d')).1 = (rb_from cmp d ops).1.
  Proof using H0 Hw.
    intros HO Hp. assert (∀ a b, cmp a b = av_cmp pcmp a b) as He by (intros a b; unfold av_cmp; rewrite Hp; by destruct (cmp a b)).
    rewrite (C27_av_is_map pcmp (OrdLaws_ext _ _ He HO) ms d' H0 Hw), (C19_rb_is_map cmp HO ms d H0 Hw).
    f_equal. apply spec_history_ext. intros o l. symmetry. by apply om_spec_ext.
  Qed.
  (** What the map holds can be asked *)
  Lemma rb_ask cmp (d : K * V) pre o :
    OrdLaws cmp → (call (om_step (rb_api cmp) o) (rb_from cmp d pre).2).1 = (om_spec cmp (N.of_nat ms) o (spec_history (om_spec cmp (N.of_nat ms)) pre []).2).1.
  Proof using H0 Hw.
    intros HO. pose proof (C19_rb_is_map cmp HO ms d H0 Hw (pre ++ [o])) as Ha.
    rewrite history_snoc, spec_history_snoc in Ha. simpl in Ha. apply app_inj_tail in Ha. by destruct Ha as [_ ?].
  Qed.
End main.
Section crit.
  Context `{Profile} {V : Type} (ms nn : nat) (H0 : (0 < ms)%nat) (Hn : N.of_nat nn + 1 < W32).
  Notation rb_from d ops := (history (om_step (rb_api N.compare)) ops (rb_new ms d)).
  Lemma rb_cb_fact (d : N * V) d' t0 ops :
    cb_new nn ms d' = Some t0 → Forall u128_op ops →
    (∀ pre k v post, ops = pre ++ MInsert k v :: post →
       let t := (rb_from d pre).2 in rb_len t < N.of_nat ms ∨ rb_contains N.compare t k = Val false) →
    (history cb_step ops t0).1 = (rb_from d ops).1.
  Proof using H0 Hn.
    intros Ht Hu Hb. assert (N.of_nat ms + 1 < W32) as Hw.
    { unfold cb_new in Ht. destruct (decide _); [|done]. lia. }
    rewrite (C33_cb_is_map nn ms d' t0 H0 Hn Ht ops Hu), (C19_rb_is_map N.compare N_laws ms d H0 Hw). f_equal.
    apply cb_spec_below. intros pre k v post ->. specialize (Hb pre k v post eq_refl). cbn zeta in *.
    pose proof (rb_ask ms H0 Hw N.compare d pre MLen N_laws) as Hl. pose proof (rb_ask ms H0 Hw N.compare d pre (MContains k) N_laws) as Hc.
    simpl in Hl, Hc. injection Hl as Hl. unfold rb_len in *. rewrite <- Hl.
    destruct Hb as [Hb|Hb]; [by left|right]. unfold call, mbind, M_bind, gets in Hc. rewrite Hb in Hc. simpl in Hc. injection Hc as Hc.
    by destruct (om_find _ _ _).
  Qed.
End crit.
