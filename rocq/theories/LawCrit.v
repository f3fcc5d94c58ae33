(** * The laws for Critbit (for C88) *)
From Verif Require Import LawMaps.
From Verif Require Export CritMain LawOm.

Section cb.
  Context `{Profile} {V : Type} (nn ms : nat) (d : V) (t0 : critbit V).
  Context (H0 : (0 < ms)%nat) (Hw : N.of_nat nn + 1 < W32) (Hnew : cb_new nn ms d = Some t0).
  Context (o1 : list (om_op N V)) (Hu : Forall u128_op o1).
  Notation cap := (N.of_nat ms).
  Notation t := (history cb_step o1 t0).2.
  Notation same := (λ a b, N.compare a b = Eq).
  Lemma cb_tight (o : om_op N V) l : true = false ∨ lengthN l + om_needs o ≤ cap → cb_spec cap o l = om_spec N.compare cap o l.
  Proof. intros [Hd|Hl]; [done|]. destruct o; try done. cbn in *. by rewrite decide_True by lia. Qed.
  Lemma cb_full k (v : V) l : true = true → cap ≤ lengthN l → cb_spec cap (MInsert k v) l = (Val (MBool false), l).
  Proof. intros _ Hl. cbn. by rewrite decide_False by lia. Qed.
  Lemma cb_from2 : ∃ l, ascending N.compare l ∧ cb_len t = lengthN l ∧ lengthN l ≤ cap ∧
    ∀ o, Forall u128_op o → (history cb_step o t).1 = (spec_history (cb_spec cap) o l).1.
  Proof using H0 Hw Hnew Hu.
    destruct (new_ok nn ms d t0 H0 Hw Hnew) as (_ & Hn & Hc).
    destruct (cb_reach nn ms d t0 H0 Hw Hnew o1 Hu) as (_ & E & HE & _). exists E.*2.*2. split_and!.
    - by destruct (asc_facts _ _ _ _ HE).
    - unfold lengthN. rewrite !fmap_length. by destruct (CritMain.len_facts _ _ _ _ HE).
    - unfold lengthN. rewrite !fmap_length. destruct HE as [[_ ->]|(U & HR & _ & ->)]; [cbn; lia|]. destruct HR as [_ _ Hl]. apply CH_len_le in Hl.
      unfold lcells, lengthN in *. rewrite !fmap_length in *. done.
    - intros o Ho. exact (proj1 (cb_history_ok _ _ Hc Hn o t E Ho HE)).
  Qed.
  Lemma cb_law_fact x y : Forall u128_op (x ++ y) → om_law same true (cap - cb_len t) x y → alike (Forall u128_op) cb_step cb_step (history cb_step x t).2 (history cb_step y t).2.
  Proof using H0 Hw Hnew Hu.
    destruct cb_from2 as (l & Ha & Hlen & Hc & Hs). intros Px Hl.
    by apply (both_law u128_op N.compare N_laws cap true cb_step _ _ l (cb_len t) cb_tight cb_full).
  Qed.
  Lemma cb_alone_fact x : Forall u128_op x → apart same om_key x → cb_len t + total om_needs x ≤ cap → (history cb_step x t).1 = map (λ o, (call (cb_step o) t).1) x.
  Proof using H0 Hw Hnew Hu.
    destruct cb_from2 as (l & Ha & Hlen & Hc & Hs). intros Px Hx Hl.
    by apply (both_alone u128_op N.compare N_laws cap true cb_step _ _ l (cb_len t) cb_tight cb_full).
  Qed.
  Lemma cb_perm_fact x y : Forall u128_op x → x ≡ₚ y → apart same om_key x → cb_len t + total om_needs x ≤ cap →
    alike (Forall u128_op) cb_step cb_step (history cb_step x t).2 (history cb_step y t).2.
  Proof using H0 Hw Hnew Hu.
    destruct cb_from2 as (l & Ha & Hlen & Hc & Hs). intros Px Hp Hx Hl.
    by apply (both_perm u128_op N.compare N_laws cap true cb_step _ _ l (cb_len t) cb_tight cb_full).
  Qed.
End cb.
